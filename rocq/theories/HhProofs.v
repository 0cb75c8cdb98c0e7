From Coq Require Import String Ascii.
From Verif Require Import Base Lib HhModel HhSpec.
Open Scope N_scope.
Open Scope list_scope.
Import ListNotations.

Lemma beq_eq a : forall b, beq a b = true <-> a = b.
Proof.
  induction a as [|x a IH]; intros [|y b]; cbn; try (split; [discriminate|discriminate]); [tauto|].
  rewrite Bool.andb_true_iff, N.eqb_eq, IH. split; [intros [-> ->]; reflexivity|intros E; injection E; auto].
Qed.
Lemma is_eq a s : is a s = true <-> a = str s.
Proof. apply beq_eq. Qed.
Lemma is_refl s : is (str s) s = true.
Proof. apply is_eq. reflexivity. Qed.
Lemma is_neq a s : is a s = false <-> a <> str s.
Proof. rewrite <- is_eq. destruct (is a s); split; congruence. Qed.
Definition pname (p : pseudo) : list N :=
  match p with PStatus => str ":status" | PMethod => str ":method" | PScheme => str ":scheme" | PAuthority => str ":authority" | PPath => str ":path"
  | PProtocol => str ":protocol" | PRegular => [] end.
Lemma pname_inj p q : pname p = pname q -> p = q.
Proof. destruct p, q; intros E; try reflexivity; vm_compute in E; discriminate. Qed.
Lemma pseudo_eqb_eq p q : pseudo_eqb p q = true <-> p = q.
Proof. destruct p, q; cbn; split; congruence. Qed.
Lemma p_has_in s p : p_has s p = true <-> In p s.
Proof.
  unfold p_has. rewrite existsb_exists. split.
  - intros (q & H & E). apply pseudo_eqb_eq in E. subst. exact H.
  - intros H. exists p. split; [exact H|]. apply pseudo_eqb_eq. reflexivity.
Qed.
Lemma pseudo_of_some mt n p : pseudo_of mt n = Some p -> n = pname p /\ In n (known mt) /\ p <> PRegular.
Proof.
  unfold pseudo_of. destruct mt.
  - destruct (is n ":method") eqn:E1; [apply is_eq in E1; intros H; inv H; cbn; splits; auto; discriminate|].
    destruct (is n ":scheme") eqn:E2; [apply is_eq in E2; intros H; inv H; cbn; splits; auto; discriminate|].
    destruct (is n ":authority") eqn:E3; [apply is_eq in E3; intros H; inv H; cbn; splits; auto; discriminate|].
    destruct (is n ":path") eqn:E4; [apply is_eq in E4; intros H; inv H; cbn; splits; auto 10; discriminate|].
    destruct (is n ":protocol") eqn:E5; [apply is_eq in E5; intros H; inv H; cbn; splits; auto 10; discriminate|]. discriminate.
  - destruct (is n ":status") eqn:E1; [apply is_eq in E1; intros H; inv H; cbn; splits; auto; discriminate|]. discriminate.
Qed.
Lemma pseudo_of_known mt n : In n (known mt) -> exists p, pseudo_of mt n = Some p /\ n = pname p /\ p <> PRegular.
Proof.
  destruct mt; cbn [known In]; intros H.
  - destruct H as [<-|[<-|[<-|[<-|[<-|[]]]]]]; eexists; (split; [vm_compute; reflexivity|split; [reflexivity|discriminate]]).
  - destruct H as [<-|[]]; eexists; (split; [vm_compute; reflexivity|split; [reflexivity|discriminate]]).
Qed.
Lemma known_colon mt n : In n (known mt) -> starts_colon n = true /\ existsb bad_name_byte (tl n) = false.
Proof. destruct mt; cbn [known In]; intros H; repeat (destruct H as [<-|H]; [split; vm_compute; reflexivity|]); contradiction. Qed.
Lemma bad_name_spec n : existsb bad_name_byte n = false <-> fine_name n.
Proof.
  unfold fine_name. rewrite <- Bool.not_true_iff_false, existsb_exists. split.
  - intros H b Hb. split.
    + intros R. apply H. exists b. split; [exact Hb|]. unfold bad_name_byte. repeat rewrite Bool.orb_true_iff. right. apply Bool.andb_true_iff. split; apply N.leb_le; lia.
    + intros R. apply H. exists b. split; [exact Hb|]. unfold bad_name_byte. cbn in R. repeat rewrite Bool.orb_true_iff. repeat rewrite N.eqb_eq. intuition.
  - intros H (b & Hb & E). specialize (H b Hb). cbn in H. unfold bad_name_byte in E. repeat rewrite Bool.orb_true_iff in E. rewrite Bool.andb_true_iff, !N.leb_le in E.
    repeat rewrite N.eqb_eq in E. destruct H as [H1 H2]. intuition.
Qed.
Lemma bad_value_spec v : existsb bad_value_byte v = false <-> fine_value v.
Proof.
  unfold fine_value. rewrite <- Bool.not_true_iff_false, existsb_exists. split.
  - intros H b Hb R. apply H. exists b. split; [exact Hb|]. unfold bad_value_byte. cbn in R. repeat rewrite Bool.orb_true_iff. repeat rewrite N.eqb_eq. intuition.
  - intros H (b & Hb & E). specialize (H b Hb). cbn in H. unfold bad_value_byte in E. repeat rewrite Bool.orb_true_iff in E. repeat rewrite N.eqb_eq in E. intuition.
Qed.
Lemma starts_fine n : starts_colon n = true -> ~ fine_name n.
Proof. destruct n as [|c n]; [discriminate|]. cbn. rewrite N.eqb_eq. intros -> H. destruct (H 0x3a (or_introl eq_refl)) as [_ H']. apply H'. cbn. tauto. Qed.

(** *** The loop *)
Definition specific (n : list N) : bool := is n "connection" || is n "keep-alive" || is n "proxy-connection" || is n "transfer-encoding" || is n "upgrade".
Lemma specific_spec n : specific n = true <-> In n connection_specific.
Proof. unfold specific, connection_specific. repeat rewrite Bool.orb_true_iff. repeat rewrite is_eq. cbn [In]. intuition (subst; auto). Qed.
Definition last_value (hs : list header) (n : string) : option (list N) :=
  fold_left (fun o h => if is (fst h) n then Some (snd h) else o) hs None.
Record linv (mt : mtype) (s : seen) (ps rs : list header) : Prop := {
  li_known : forall h, In h ps -> In (fst h) (known mt);
  li_nodup : NoDup (map fst ps);
  li_names : forall h, In h rs -> fine_name (fst h);
  li_values : forall h, In h (ps ++ rs) -> fine_value (snd h);
  li_spec : forall h, In h (ps ++ rs) -> ~ In (fst h) connection_specific;
  li_te : forall h, In h (ps ++ rs) -> fst h = str "te" -> snd h = str "trailers";
  li_reg : In PRegular (v_set s) <-> rs <> [];
  li_set : forall p, p <> PRegular -> (In p (v_set s) <-> In (pname p) (map fst ps));
  li_method : forall v, v_method s = Some v <-> In (str ":method", v) ps;
  li_protocol : forall v, v_protocol s = Some v <-> In (str ":protocol", v) ps;
  li_scheme : forall v, v_scheme s = Some v <-> In (str ":scheme", v) ps }.
Lemma linv_init mt : linv mt (mkSeen None None None []) [] [].
Proof. constructor; cbn; try tauto; try apply NoDup_nil; intros; split; try discriminate; tauto. Qed.
Lemma notin_fst {A B} (l : list (A * B)) a b : ~ In a (map fst l) -> ~ In (a, b) l.
Proof. intros H I. apply H. apply in_map_iff. exists (a, b). auto. Qed.
Lemma snoc_in (l : list header) n v x y : In (x, y) (l ++ [(n, v)]) <-> In (x, y) l \/ (x = n /\ y = v).
Proof. rewrite in_app_iff. cbn. split; [intros [H|[H|[]]]; [auto|injection H; auto]|intros [H|[-> ->]]; auto]. Qed.

Definition ok_one (mt : mtype) (ps rs : list header) (h : header) : Prop :=
  fine_value (snd h) /\ ~ In (fst h) connection_specific /\ (fst h = str "te" -> snd h = str "trailers") /\
  ((starts_colon (fst h) = true /\ rs = [] /\ In (fst h) (known mt) /\ ~ In (fst h) (map fst ps)) \/ fine_name (fst h)).
Lemma upd_value (ps : list header) (x n v : list N) (o : option (list N)) :
  (forall w, o = Some w <-> In (x, w) ps) -> ~ In n (map fst ps) ->
  forall w, (if beq n x then Some v else o) = Some w <-> In (x, w) (ps ++ [(n, v)]).
Proof.
  intros H Hn w. rewrite snoc_in. destruct (beq n x) eqn:E.
  - apply beq_eq in E. subst x. split.
    + intros Z. injection Z as <-. right. auto.
    + intros [Z|[_ ->]]; [exfalso; exact (notin_fst _ _ _ Hn Z)|reflexivity].
  - rewrite H. split; [auto|]. intros [Z|[-> ->]]; [exact Z|]. assert (beq n n = true) by (apply beq_eq; reflexivity). congruence.
Qed.
Lemma check_one_ok mt s ps rs h : linv mt s ps rs ->
  match check_one mt s h with
  | Some s' => ok_one mt ps rs h /\ (if starts_colon (fst h) then linv mt s' (ps ++ [h]) [] else linv mt s' ps (rs ++ [h]))
  | None => ~ ok_one mt ps rs h
  end.
Proof.
  intros V. destruct V as [V1 V2 V3 V4 V5 V6 V7 V8 V9 V10 V11]. destruct h as [n v]. unfold check_one, ok_one. cbn [fst snd].
  unfold track_pseudo. change (is n "connection" || is n "keep-alive" || is n "proxy-connection" || is n "transfer-encoding" || is n "upgrade") with (specific n).
  assert (K : forall s1 : seen, (if specific n then None else if is n "te" && negb (is v "trailers") then None else Some s1) = None ->
     In n connection_specific \/ (n = str "te" /\ v <> str "trailers")).
  { intros s1. destruct (specific n) eqn:E; [intros _; left; apply specific_spec; exact E|].
    destruct (is n "te") eqn:E2; cbn [andb]; [|discriminate]. destruct (is v "trailers") eqn:E3; cbn [negb]; [discriminate|]. intros _. right. split; [apply is_eq; exact E2|apply is_neq; exact E3]. }
  assert (K2 : forall s1 s2 : seen, (if specific n then None else if is n "te" && negb (is v "trailers") then None else Some s1) = Some s2 ->
     ~ In n connection_specific /\ (n = str "te" -> v = str "trailers") /\ s2 = s1).
  { intros s1 s2. destruct (specific n) eqn:E; [discriminate|]. assert (~ In n connection_specific) by (rewrite <- specific_spec; congruence).
    destruct (is n "te") eqn:E2; cbn [andb].
    - destruct (is v "trailers") eqn:E3; cbn [negb]; [|discriminate]. intros Z. injection Z as <-. splits; auto. intros _. apply is_eq. exact E3.
    - intros Z. injection Z as <-. splits; auto. intros ->. rewrite is_refl in E2. discriminate. }
  destruct (starts_colon n) eqn:Ec.
  - assert (NF : ~ fine_name n) by (apply starts_fine; exact Ec).
    destruct (p_has (v_set s) PRegular) eqn:Er.
    { intros (_ & _ & _ & [(_ & -> & _)|F]); [|tauto]. apply p_has_in in Er. apply V7 in Er. congruence. }
    assert (Rs : rs = []) by (destruct rs; [reflexivity|]; exfalso; assert (In PRegular (v_set s)) by (apply V7; discriminate); apply p_has_in in H; congruence).
    destruct (pseudo_of mt n) as [p|] eqn:Ep.
    2: { intros (_ & _ & _ & [(_ & _ & I & _)|F]); [|tauto]. destruct (pseudo_of_known mt n I) as (p & E & _). congruence. }
    destruct (pseudo_of_some _ _ _ Ep) as (En & Ik & Np). assert (pseudo_eqb p PRegular = false) as -> by (destruct (pseudo_eqb p PRegular) eqn:Z; [apply pseudo_eqb_eq in Z; congruence|reflexivity]).
    cbn [negb]. rewrite Bool.orb_false_r. destruct (p_has (v_set s) p) eqn:Eh.
    { cbn [negb]. intros (_ & _ & _ & [(_ & _ & _ & I)|F]); [|tauto]. apply p_has_in in Eh. apply V8 in Eh; [|exact Np]. rewrite <- En in Eh. tauto. }
    cbn [negb]. assert (Nn : ~ In n (map fst ps)) by (rewrite En; rewrite <- (V8 p Np), <- p_has_in; congruence).
    destruct (known_colon mt n Ik) as [_ Eb]. rewrite Eb.
    destruct (existsb bad_value_byte v) eqn:Ev. { intros (F & _). apply bad_value_spec in F. congruence. }
    apply bad_value_spec in Ev.
    match goal with |- context [if specific n then None else if _ then None else Some ?S1] => set (s1 := S1) end.
    destruct (if specific n then None else if is n "te" && negb (is v "trailers") then None else Some s1) as [s2|] eqn:E.
    2: { apply K in E. intros (_ & A & B & _). destruct E as [E|[E1 E2]]; [tauto|]. apply E2. apply B. exact E1. }
    apply K2 in E as (A & B & ->). split; [splits; auto; left; splits; auto|].
    assert (Es : v_set s1 = p :: v_set s /\ v_method s1 = (if beq n (str ":method") then Some v else v_method s) /\ v_protocol s1 = (if beq n (str ":protocol") then Some v else v_protocol s) /\
       v_scheme s1 = (if beq n (str ":scheme") then Some v else v_scheme s)).
    { unfold s1. unfold is. rewrite En. destruct p; vm_compute; auto. }
    destruct Es as (S1 & S2 & S3 & S4). constructor; rewrite ?app_nil_r; auto.
    + intros h. rewrite in_app_iff. intros [H|[<-|[]]]; auto.
    + rewrite map_app. cbn [map fst]. apply nodup_snoc; auto.
    + intros h [].
    + intros h. rewrite in_app_iff. intros [H|[<-|[]]]; cbn [fst snd]; auto. apply V4. apply in_app_iff. auto.
    + intros h. rewrite in_app_iff. intros [H|[<-|[]]]; cbn [fst snd]; auto. apply V5. apply in_app_iff. auto.
    + intros h. rewrite in_app_iff. intros [H|[<-|[]]]; cbn [fst snd]; auto. apply V6. apply in_app_iff. auto.
    + rewrite S1. cbn. rewrite V7, Rs. split; [intros [H|H]; congruence|congruence].
    + intros q Nq. rewrite S1, map_app, in_app_iff. cbn. rewrite (V8 q Nq). split.
      * intros [<-|H]; [right; left; exact En|auto].
      * intros [H|[H|[]]]; [auto|left; apply pname_inj; congruence].
    + rewrite S2. apply upd_value; auto.
    + rewrite S3. apply upd_value; auto.
    + rewrite S4. apply upd_value; auto.
  - cbn [pseudo_eqb negb]. rewrite Bool.orb_true_r.
    destruct (existsb bad_name_byte n) eqn:Eb. { intros (_ & _ & _ & [(Z & _)|F]); [discriminate|]. apply bad_name_spec in F. congruence. }
    apply bad_name_spec in Eb.
    destruct (existsb bad_value_byte v) eqn:Ev. { intros (F & _). apply bad_value_spec in F. congruence. }
    apply bad_value_spec in Ev.
    match goal with |- context [if specific n then None else if _ then None else Some ?S1] => set (s1 := S1) end.
    destruct (if specific n then None else if is n "te" && negb (is v "trailers") then None else Some s1) as [s2|] eqn:E.
    2: { apply K in E. intros (_ & A & B & _). destruct E as [E|[E1 E2]]; [tauto|]. apply E2. apply B. exact E1. }
    apply K2 in E as (A & B & ->). split; [splits; auto|]. unfold s1.
    constructor; cbn [v_set v_method v_protocol v_scheme]; auto.
    + intros h. rewrite in_app_iff. intros [H|[<-|[]]]; cbn; auto.
    + intros h. rewrite app_assoc, in_app_iff. intros [H|[<-|[]]]; cbn [fst snd]; auto.
    + intros h. rewrite app_assoc, in_app_iff. intros [H|[<-|[]]]; cbn [fst snd]; auto.
    + intros h. rewrite app_assoc, in_app_iff. intros [H|[<-|[]]]; cbn [fst snd]; auto.
    + cbn. split; [intros _; destruct rs; discriminate|auto].
    + intros p Np. cbn. rewrite (V8 p Np). split; [intros [H|H]; [congruence|exact H]|auto].
Qed.
(** Well-formed but for what must be there, after what was seen. *)
Definition shape (mt : mtype) (ps rs hs : list header) : Prop := exists ps2 rs2, hs = ps2 ++ rs2 /\ (rs <> [] -> ps2 = []) /\
  (forall h, In h ps2 -> In (fst h) (known mt)) /\ NoDup (map fst (ps ++ ps2)) /\ (forall h, In h rs2 -> fine_name (fst h)) /\
  (forall h, In h hs -> fine_value (snd h) /\ ~ In (fst h) connection_specific /\ (fst h = str "te" -> snd h = str "trailers")).
Lemma check_all_ok mt hs : forall s ps rs, linv mt s ps rs ->
  match check_all mt s hs with
  | Some s' => exists ps2 rs2, hs = ps2 ++ rs2 /\ (rs <> [] -> ps2 = []) /\ linv mt s' (ps ++ ps2) (rs ++ rs2)
  | None => ~ shape mt ps rs hs
  end.
Proof.
  induction hs as [|h hs IH]; intros s ps rs V; cbn [check_all].
  { exists [], []. rewrite !app_nil_r. splits; auto. }
  pose proof (check_one_ok mt s ps rs h V) as C. destruct (check_one mt s h) as [s'|].
  - destruct C as [O C]. destruct (starts_colon (fst h)) eqn:Ec.
    + assert (Rs : rs = [] /\ In (fst h) (known mt)).
      { destruct O as (_ & _ & _ & [(_ & A & B & _)|F]); [auto|]. exfalso. exact (starts_fine _ Ec F). }
      destruct Rs as [-> Ik]. specialize (IH s' (ps ++ [h]) [] C). destruct (check_all mt s' hs) as [s2|].
      * destruct IH as (ps2 & rs2 & -> & _ & L). exists (h :: ps2), rs2. rewrite <- app_assoc in L. splits; auto. congruence.
      * intros (ps2 & rs2 & E & R & K & ND & FN & FV). apply IH. destruct ps2 as [|h2 ps2].
        -- cbn in E. subst rs2. exfalso. exact (starts_fine _ Ec (FN h (or_introl eq_refl))).
        -- cbn in E. injection E as <- ->. exists ps2, rs2. rewrite <- app_assoc. splits; auto.
           ++ intros Z. congruence.
           ++ intros h' Hh. apply K. right. exact Hh.
           ++ intros h' Hh. apply FV. right. exact Hh.
    + specialize (IH s' ps (rs ++ [h]) C). destruct (check_all mt s' hs) as [s2|].
      * destruct IH as (ps2 & rs2 & -> & R & L). assert (ps2 = []) as -> by (apply R; destruct rs; discriminate). exists [], (h :: rs2). rewrite <- app_assoc in L. splits; auto.
      * intros (ps2 & rs2 & E & R & K & ND & FN & FV). apply IH. destruct ps2 as [|h2 ps2].
        -- cbn in E. subst rs2. exists [], hs. splits; auto; try (intros h' Hh; apply FN; right; exact Hh); intros h' Hh; apply FV; right; exact Hh.
        -- cbn in E. injection E as <- ->. destruct (known_colon mt (fst h) (K h (or_introl eq_refl))) as [Z _]. congruence.
  - intros (ps2 & rs2 & E & R & K & ND & FN & FV). apply C. destruct (FV h (or_introl eq_refl)) as (A1 & A2 & A3). unfold ok_one. splits; auto.
    destruct ps2 as [|h2 ps2]; cbn in E.
    + subst rs2. right. apply FN. left. reflexivity.
    + injection E as <- ->. left. destruct (known_colon mt (fst h) (K h (or_introl eq_refl))) as [Z _]. splits; auto.
      * destruct rs; [reflexivity|]. discriminate R. discriminate.
      * apply K. left. reflexivity.
      * rewrite map_app in ND. cbn in ND. apply NoDup_remove_2 in ND. rewrite in_app_iff in ND. tauto.
Qed.
Lemma has_names mt s ps rs p n : linv mt s ps rs -> n = pname p -> p <> PRegular -> (In p (v_set s) <-> exists v, In (n, v) (ps ++ rs)).
Proof.
  intros V -> Np. rewrite (li_set _ _ _ _ V p Np). split.
  - intros H. apply in_map_iff in H as ([x v] & E & I). cbn in E. subst x. exists v. apply in_app_iff. auto.
  - intros [v H]. apply in_app_iff in H as [H|H]; [apply in_map_iff; exists (pname p, v); auto|].
    exfalso. assert (F := li_names _ _ _ _ V _ H). cbn in F. revert F. apply starts_fine. destruct p; try congruence; vm_compute; reflexivity.
Qed.
Lemma in_ps mt s ps rs (n v : list N) : linv mt s ps rs -> starts_colon n = true -> (In (n, v) ps <-> In (n, v) (ps ++ rs)).
Proof.
  intros V Ec. rewrite in_app_iff. split; [auto|]. intros [H|H]; [exact H|]. exfalso. exact (starts_fine _ Ec (li_names _ _ _ _ V _ H)).
Qed.
Lemma opt_is_some o s : opt_is o s = true <-> o = Some (str s).
Proof. destruct o as [v|]; cbn; [rewrite is_eq|]; split; congruence. Qed.
Lemma method_one mt s ps rs a b : linv mt s ps rs -> In (str ":method", a) (ps ++ rs) -> In (str ":method", b) (ps ++ rs) -> a = b.
Proof.
  intros V A B. apply (in_ps mt s) in A; [|exact V|reflexivity]. apply (in_ps mt s) in B; [|exact V|reflexivity].
  apply (li_method _ _ _ _ V) in A. apply (li_method _ _ _ _ V) in B. congruence.
Qed.
Theorem headers_valid_iff hs mt : headers_valid hs mt = true <-> wellformed mt hs.
Proof.
  unfold headers_valid. pose proof (check_all_ok mt hs _ _ _ (linv_init mt)) as C. destruct (check_all mt (mkSeen None None None []) hs) as [s|].
  2: { split; [discriminate|]. intros [(ps & rs & -> & K & ND & FN) W2 W3 W4 _]. exfalso. apply C. exists ps, rs. splits; auto; intros []; congruence. }
  destruct C as (ps & rs & -> & _ & V). cbn [app] in V.
  assert (H0 : forall p n, n = pname p -> p <> PRegular -> (p_has (v_set s) p = true <-> exists v, In (n, v) (ps ++ rs))).
  { intros p n E Np. rewrite p_has_in. eapply has_names; eauto. }
  pose proof (H0 PStatus (str ":status") eq_refl ltac:(discriminate)) as Hst. pose proof (H0 PMethod (str ":method") eq_refl ltac:(discriminate)) as Hme.
  pose proof (H0 PScheme (str ":scheme") eq_refl ltac:(discriminate)) as Hsc. pose proof (H0 PAuthority (str ":authority") eq_refl ltac:(discriminate)) as Hau.
  pose proof (H0 PPath (str ":path") eq_refl ltac:(discriminate)) as Hpa. pose proof (H0 PProtocol (str ":protocol") eq_refl ltac:(discriminate)) as Hpr. clear H0.
  assert (Vm : opt_is (v_method s) "CONNECT" = true <-> In (str ":method", str "CONNECT") (ps ++ rs)).
  { rewrite opt_is_some, (li_method _ _ _ _ V). apply (in_ps mt s); [exact V|reflexivity]. }
  assert (Vs : opt_is (v_scheme s) "https" = true <-> In (str ":scheme", str "https") (ps ++ rs)).
  { rewrite opt_is_some, (li_scheme _ _ _ _ V). apply (in_ps mt s); [exact V|reflexivity]. }
  assert (Vp : forall p, v_protocol s = Some p <-> In (str ":protocol", p) (ps ++ rs)).
  { intros p. rewrite (li_protocol _ _ _ _ V). apply (in_ps mt s); [exact V|reflexivity]. }
  assert (W : complete mt (ps ++ rs) -> wellformed mt (ps ++ rs)).
  { intros H. constructor; [exists ps, rs|..|exact H]; destruct V; splits; auto. }
  assert (MO := fun a b => method_one mt s ps rs a b V). clear V.
  transitivity (complete mt (ps ++ rs)); [|split; [exact W|intros []; assumption]]. clear W.
  unfold mask, complete. destruct mt.
  2: { cbn [forallb]. rewrite Bool.andb_true_r, Hst. reflexivity. }
  destruct (opt_is (v_method s) "CONNECT") eqn:Em.
  - assert (M1 : In (str ":method", str "CONNECT") (ps ++ rs)) by (apply Vm; reflexivity).
    assert (NoAlt : ~ ((exists m, In (str ":method", m) (ps ++ rs) /\ m <> str "CONNECT") /\ has (ps ++ rs) ":scheme" /\ has (ps ++ rs) ":path" /\ ~ has (ps ++ rs) ":protocol")).
    { intros ((m & A & B) & _). apply B. eapply MO; eauto. }
    assert (Me : p_has (v_set s) PMethod = true) by (apply Hme; eauto).
    destruct (v_protocol s) as [p|] eqn:Epp.
    + assert (P1 : In (str ":protocol", p) (ps ++ rs)) by (apply Vp; reflexivity).
      destruct (is p "webtransport") eqn:Ew; cbn [andb].
      * apply is_eq in Ew. destruct (opt_is (v_scheme s) "https") eqn:Es; cbn [negb].
        -- rewrite Bool.andb_false_r. cbn [forallb]. rewrite Me, Bool.andb_true_r. cbn [andb]. rewrite !Bool.andb_true_iff, Hau, Hsc, Hpa. split.
           ++ intros (A & B & D). left. splits; auto. intros q _. splits; auto. intros _. apply Vs. reflexivity.
           ++ intros [(_ & A & B)|Z]; [|tauto]. destruct (B p P1) as (B1 & B2 & _). auto.
        -- split; [discriminate|]. intros [(_ & A & B)|Z]; [|tauto]. destruct (B p P1) as (B1 & B2 & B3). apply Vs in B3; [discriminate|exact Ew].
      * cbn [negb]. rewrite Bool.andb_false_r. cbn [forallb]. rewrite Me, Bool.andb_true_r. cbn [andb]. rewrite !Bool.andb_true_iff, Hau, Hsc, Hpa. split.
        -- intros (A & B & D). left. splits; auto. intros q Hq. splits; auto. intros ->. apply Vp in Hq. injection Hq as ->. rewrite is_refl in Ew. discriminate.
        -- intros [(_ & A & B)|Z]; [|tauto]. destruct (B p P1) as (B1 & B2 & _). auto.
    + cbn [negb]. rewrite Bool.andb_false_r. cbn [forallb]. rewrite Me, Bool.andb_true_r. cbn [andb]. rewrite Hau. split.
      * intros A. left. splits; auto. intros p Hp. apply Vp in Hp. discriminate.
      * intros [(_ & A & _)|Z]; [exact A|tauto].
  - cbn [negb]. rewrite Bool.andb_true_r.
    assert (NM : ~ In (str ":method", str "CONNECT") (ps ++ rs)) by (intros Z; apply Vm in Z; discriminate).
    destruct (p_has (v_set s) PProtocol) eqn:Ep.
    + split; [discriminate|]. intros [(Z & _)|(_ & _ & _ & Z)]; [tauto|]. exfalso. apply Z. apply Hpr. reflexivity.
    + cbn [forallb]. rewrite Bool.andb_true_r, !Bool.andb_true_iff, Hme, Hsc, Hpa. split.
      * intros ((m & A) & B & D). right. splits; auto.
        -- exists m. split; [exact A|]. intros ->. tauto.
        -- intros Z. apply Hpr in Z. discriminate.
      * intros [(Z & _)|((m & A & _) & B & D & _)]; [tauto|]. splits; eauto.
Qed.
(** *** Status codes *)
Lemma digits_spec v : forall acc n, digits acc v = Some n <-> (Forall digit v /\ n = fold_left (fun a c => a * 10 + (c - 0x30)) v acc /\ (n <= 65535 \/ v = [])).
Proof.
  induction v as [|c v IH]; intros acc n; cbn [digits fold_left].
  - split; [intros E; injection E as <-; auto|intros (_ & -> & _); reflexivity].
  - assert (Mono : forall w a, a <= fold_left (fun a c => a * 10 + (c - 0x30)) w a).
    { induction w as [|x w IHw]; intros a; cbn [fold_left]; [lia|]. etransitivity; [|apply IHw]. lia. }
    destruct (N.leb_spec 0x30 c); cbn [andb]; [|split; [discriminate|intros (F & _); inversion F as [|? ? D]; unfold digit in D; lia]].
    destruct (N.leb_spec c 0x39); [|split; [discriminate|intros (F & _); inversion F as [|? ? D]; unfold digit in D; lia]].
    destruct (N.ltb_spec 65535 (acc * 10 + (c - 0x30))).
    + split; [discriminate|]. intros (F & -> & [L|L]); [|discriminate]. pose proof (Mono v (acc * 10 + (c - 0x30))). lia.
    + rewrite IH. split.
      * intros (F & E & L). splits; auto; [constructor; auto; unfold digit; lia|]. destruct L as [L|L]; [auto|]. subst v. cbn in E. left. lia.
      * intros (F & E & L). inversion F; subst. splits; auto. left. destruct L; [assumption|discriminate].
Qed.
Lemma parse_spec v n : parse_u16 v = Some n <-> code_of v n.
Proof.
  unfold parse_u16, code_of, decimal. destruct v as [|c v].
  - split; [discriminate|]. intros (d & [<-|E] & N & _); [congruence|discriminate].
  - destruct (N.eqb_spec c 0x2b) as [->|Nc].
    + destruct v as [|d v].
      * split; [discriminate|]. intros (d & [<-|E] & N & F & _).
        -- inversion F as [|? ? D]. unfold digit in D. lia.
        -- injection E as <-. congruence.
      * rewrite digits_spec. split.
        -- intros (F & E & [L|L]); [|discriminate]. exists (d :: v). splits; auto. discriminate.
        -- intros (x & [<-|E] & N & F & E2 & L).
           ++ inversion F as [|? ? D]. unfold digit in D. lia.
           ++ injection E as <-. splits; auto.
    + rewrite digits_spec. split.
      * intros (F & E & [L|L]); [|discriminate]. exists (c :: v). splits; auto. discriminate.
      * intros (x & [<-|E] & N & F & E2 & L); [splits; auto|]. congruence.
Qed.
Lemma three_code v : three_digits v -> code_of v (decimal v) /\ decimal v <= 999.
Proof.
  intros [L F]. destruct v as [|a [|b [|c [|? ?]]]]; try discriminate. inversion F as [|? ? A F1]; subst. inversion F1 as [|? ? B F2]; subst. inversion F2 as [|? ? D _]; subst. unfold digit in *.
  assert (decimal [a; b; c] <= 999) by (unfold decimal; cbn [fold_left]; lia). split; [|exact H]. exists [a; b; c]. splits; auto; [discriminate|lia].
Qed.
