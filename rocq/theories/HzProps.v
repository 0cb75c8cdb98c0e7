(** C110: an HTTP/3 server tells its application what happens on each of its connections. *)
From Coq Require Import NArith List Bool PeanoNat Lia Permutation.
From Verif Require Import HzModel HzSpec.
Import ListNotations.

Lemma set_same {A} (f : nat -> A) k x : set f k x k = x. Proof. unfold set. rewrite Nat.eqb_refl. reflexivity. Qed.
Lemma set_other {A} (f : nat -> A) k x i : i <> k -> set f k x i = f i. Proof. intro H. unfold set. apply Nat.eqb_neq in H. rewrite H. reflexivity. Qed.

(** A queue of events: only a closed connection's ends with the end, once. *)
Definition qok (c : conn) : Prop := exists es, c_q c = map TEv es \/ (c_shut c = true /\ c_q c = map TEv es ++ [TShut]).
Definition qopen (c : conn) : Prop := c_shut c = false -> exists es, c_q c = map TEv es.
Definition closes (k : nat) (l : list oev) : nat := length (filter (fun e => match e with OClosed j => Nat.eqb j k | _ => false end) l).
Lemma closes_app k a b : closes k (a ++ b) = (closes k a + closes k b)%nat. Proof. unfold closes. rewrite filter_app, app_length. reflexivity. Qed.
Lemma closes_silent k l : silent k l -> closes k l = 0%nat.
Proof.
  intro H. induction l as [|e l IH]; [reflexivity|]. unfold closes in *. cbn [filter]. assert (S : silent k l) by (intros x X; apply H; right; exact X).
  destruct e; try exact (IH S). destruct (Nat.eqb_spec k0 k) as [->|N]; [|exact (IH S)]. destruct (H (OClosed k) (or_introl eq_refl)). reflexivity.
Qed.
Definition endings (k : nat) (l : list oev) : nat := length (filter (fun e => match e with OEnding j => Nat.eqb j k | _ => false end) l).
Lemma endings_app k a b : endings k (a ++ b) = (endings k a + endings k b)%nat. Proof. unfold endings. rewrite filter_app, app_length. reflexivity. Qed.
Lemma endings_silent k l : silent k l -> endings k l = 0%nat.
Proof.
  intro H. induction l as [|e l IH]; [reflexivity|]. unfold endings in *. cbn [filter]. assert (S : silent k l) by (intros x X; apply H; right; exact X).
  destruct e; try exact (IH S). destruct (Nat.eqb_spec k0 k) as [->|N]; [|exact (IH S)]. destruct (H (OEnding k) (or_introl eq_refl)). reflexivity.
Qed.
Record inv (s : srv) (k : nat) : Prop := {
  i_q : qok (v_conn s k); i_o : qopen (v_conn s k);
  i_h : forall h, v_hand s k = Some h -> h_st h <> HClosed;
  i_n : (v_n s <= k)%nat -> v_hand s k = None /\ v_live s k = false /\ c_q (v_conn s k) = [] /\ closes k (told s) = 0%nat /\ endings k (told s) = 0%nat;
  i_c : closes k (told s) = 0%nat \/ (closes k (told s) = 1%nat /\ v_hand s k = None /\ c_shut (v_conn s k) = true /\ c_q (v_conn s k) = []);
  i_e : endings k (told s) = 0%nat \/ (endings k (told s) = 1%nat /\ ((exists h, v_hand s k = Some h /\ h_st h = HClosing) \/ (v_hand s k = None /\ c_shut (v_conn s k) = true /\ c_q (v_conn s k) = []))) }.

Lemma take_ok k : forall es st (sh : bool), st <> HClosed -> exists l st', h_take k st (map TEv es ++ if sh then [TShut] else []) = (st', l) /\
  tells k (match st with HOpen => true | _ => false end) (map TEv es ++ if sh then [TShut] else []) l /\ existsb is_closed l = sh /\ (st' = HClosed <-> sh = true) /\ closes k l = (if sh then 1 else 0)%nat /\
  (forall j, j <> k -> silent j l) /\ (endings k l = 0%nat \/ (endings k l = 1%nat /\ st = HOpen)) /\ (st = HClosing \/ endings k l = 1%nat -> st' <> HOpen).
Proof.
  induction es as [|e es IH]; intros st sh N; cbn [map app].
  - destruct sh.
    + exists [OClosed k], HClosed. cbn [h_take h_one]. split; [destruct st; try congruence; reflexivity|]. split; [constructor|]. split; [reflexivity|]. split; [tauto|].
      split; [unfold closes; cbn [filter]; rewrite Nat.eqb_refl; reflexivity|]. split; [intros j J x [<-|[]] X; cbn in X; congruence|]. split; [left; reflexivity|discriminate].
    + exists [], st. cbn. split; [reflexivity|]. split; [constructor|]. split; [reflexivity|]. split; [split; [congruence|discriminate]|]. split; [reflexivity|]. split; [intros j _ x []|]. split; [left; reflexivity|]. intros [->|X]; discriminate.
  - destruct e as [n|p q|b].
    + destruct (IH st sh N) as (l & st' & E & T & X & C & K & S & En & Eo). exists (OOther k n :: l), st'. cbn [h_take h_one]. rewrite E. split; [reflexivity|]. split; [constructor; exact T|]. split; [exact X|]. split; [exact C|]. split; [exact K|].
      split; [intros j J x [<-|I]; [cbn; congruence|exact (S j J x I)]|]. split; [exact En|exact Eo].
    + destruct (IH st sh N) as (l & st' & E & T & X & C & K & S & En & Eo). exists (OPriority p q :: l), st'. cbn [h_take h_one]. rewrite E. split; [reflexivity|]. split; [constructor; exact T|]. split; [exact X|]. split; [exact C|]. split; [exact K|].
      split; [intros j J x [<-|I]; [cbn; tauto|exact (S j J x I)]|]. split; [exact En|exact Eo].
    + destruct st; [| |congruence].
      * destruct (IH HClosing sh ltac:(discriminate)) as (l & st' & E & T & X & C & K & S & En & Eo). exists (OEnding k :: l), st'. cbn [h_take h_one]. rewrite E. split; [reflexivity|]. split; [constructor; exact T|]. split; [exact X|]. split; [exact C|]. split; [exact K|].
        split; [intros j J x [<-|I]; [cbn; congruence|exact (S j J x I)]|]. assert (E0 : endings k l = 0%nat) by (destruct En as [En|[_ En]]; [exact En|discriminate]).
        assert (E1 : endings k (OEnding k :: l) = 1%nat) by (unfold endings in *; cbn [filter]; rewrite Nat.eqb_refl; cbn [length]; rewrite E0; reflexivity). split; [right; auto|]. intros _. apply Eo. left. reflexivity.
      * destruct (IH HClosing sh N) as (l & st' & E & T & X & C & K & S & En & Eo). exists l, st'. cbn [h_take h_one]. rewrite E. split; [reflexivity|]. split; [constructor; exact T|]. split; [exact X|]. split; [exact C|]. split; [exact K|]. split; [exact S|]. split; [exact En|exact Eo].
Qed.
Lemma own_silent k j l : j <> k -> silent j (map (OOther k) l).
Proof. intros J x X Y. apply in_map_iff in X. destruct X as (n & <- & _). cbn in Y. congruence. Qed.
Lemma own_open k l : existsb is_closed (map (OOther k) l) = false. Proof. induction l; cbn; auto. Qed.
Lemma own_endings k l : endings k (map (OOther k) l) = 0%nat. Proof. induction l; cbn; auto. Qed.
Lemma own_closes k l : closes k (map (OOther k) l) = 0%nat. Proof. induction l; cbn; auto. Qed.
Lemma silent_app k a b : silent k a -> silent k b -> silent k (a ++ b).
Proof. intros A B x X. apply in_app_or in X. destruct X as [X|X]; auto. Qed.

(** One connection's turn. *)
Lemma turn left s k : qok (v_conn s k) -> (forall h, v_hand s k = Some h -> h_st h <> HClosed) ->
  exists l, let s' := process_events left s k in
    v_queue s' = v_queue s ++ map (OOther k) (own_of s k) ++ l /\ v_taken s' = v_taken s /\ v_n s' = v_n s /\ v_live s' = v_live s /\
    tells k (open_for s k) (c_q (v_conn s k)) l /\ (forall j, j <> k -> v_conn s' j = v_conn s j /\ v_hand s' j = v_hand s j) /\ (forall j, j <> k -> silent j (map (OOther k) (own_of s k) ++ l)) /\
    v_conn s' k = mkC [] (c_shut (v_conn s k)) (c_timer (v_conn s k)) /\ (forall h, v_hand s' k = Some h -> h_st h <> HClosed) /\
    (In TShut (c_q (v_conn s k)) -> v_hand s' k = None /\ closes k l = 1%nat) /\ (~ In TShut (c_q (v_conn s k)) -> v_hand s' k <> None /\ closes k l = 0%nat) /\
    (endings k l = 0%nat \/ (endings k l = 1%nat /\ open_for s k = true)) /\ (forall h, v_hand s' k = Some h -> open_for s k = false \/ endings k l = 1%nat -> h_st h = HClosing) /\ own_of s' k = [].
Proof.
  intros Q H. set (h := match v_hand s k with Some h => h | None => h_new end).
  assert (Hs : h_st h <> HClosed) by (unfold h; destruct (v_hand s k) eqn:E; [apply H; reflexivity|discriminate]).
  assert (Ow : own_of s k = h_own h) by (unfold own_of, h; destruct (v_hand s k); reflexivity).
  assert (Op : open_for s k = match h_st h with HOpen => true | _ => false end) by (unfold open_for, h; destruct (v_hand s k); reflexivity).
  assert (Sh : exists es (sh : bool), c_q (v_conn s k) = map TEv es ++ (if sh then [TShut] else []) /\ (In TShut (c_q (v_conn s k)) <-> sh = true)).
  { assert (NI : forall es, ~ In TShut (map TEv es)) by (intros es I; apply in_map_iff in I; destruct I as (x & X & _); discriminate).
    destruct Q as [es [E|[_ E]]]; rewrite E; [exists es, false; rewrite app_nil_r; split; [reflexivity|]; split; [intros I; destruct (NI es I)|discriminate]|exists es, true; split; [reflexivity|]; split; [auto|]; intros _; apply in_or_app; right; left; reflexivity]. }
  destruct Sh as (es & sh & Eq & Si). destruct (take_ok k es (h_st h) sh Hs) as (l & st' & Et & T & X & Cl & K & Si2 & En & Eo). rewrite <- Eq in Et, T.
  exists l. cbv zeta. unfold process_events. fold h.
  assert (Em : (match h_st h with HClosed => (HClosed, [], v_conn s k) | st0 => let '(st, e) := h_take k st0 (c_q (v_conn s k)) in (st, e, mkC [] (c_shut (v_conn s k)) (c_timer (v_conn s k))) end) = (st', l, mkC [] (c_shut (v_conn s k)) (c_timer (v_conn s k)))).
  { destruct (h_st h); [rewrite Et; reflexivity|rewrite Et; reflexivity|congruence]. }
  rewrite Em. cbn [v_queue v_taken v_n v_live v_conn v_hand]. rewrite existsb_app, own_open, X, Ow, Op. cbn [orb]. rewrite !set_same.
  split; [reflexivity|]. split; [reflexivity|]. split; [reflexivity|]. split; [reflexivity|]. split; [exact T|]. split; [intros j J; rewrite !set_other by exact J; auto|].
  split; [intros j J; apply silent_app; [apply own_silent; exact J|exact (Si2 j J)]|]. split; [reflexivity|].
  split; [destruct sh; [discriminate|]; intros h' E'; inversion E'; subst; cbn [h_st]; rewrite Cl; discriminate|].
  split; [intro I; rewrite Si in I; destruct sh; [auto|discriminate I]|]. split; [intro I; rewrite Si in I; destruct sh; [destruct I; reflexivity|]; split; [discriminate|exact K]|].
  split; [destruct En as [En|[En ->]]; auto|]. split; [|unfold own_of; cbn [v_hand]; rewrite set_same; destruct sh; reflexivity]. destruct sh; [discriminate|]. intros h' E' Z. inversion E'; subst. cbn [h_st]. assert (Zc : st' <> HClosed) by (rewrite Cl; discriminate).
  assert (Zo : st' <> HOpen) by (apply Eo; destruct Z as [Z|Z]; [left; destruct (h_st h); congruence|right; exact Z]). destruct st'; congruence.
Qed.

Lemma turn_inv left s k : (k < v_n s)%nat -> (v_hand s k <> None \/ c_q (v_conn s k) <> []) -> inv s k -> inv (process_events left s k) k.
Proof.
  intros Lk Ac I. destruct (turn left s k (i_q _ _ I) (i_h _ _ I)) as (l & Q & T & Nn & L & _ & _ & _ & C & H & Y & Z & En & Eo & _).
  set (s' := process_events left s k) in *.
  assert (K : closes k (told s') = (closes k (told s) + closes k l)%nat). { unfold told. rewrite Q, T, !closes_app, own_closes. lia. }
  constructor.
  - rewrite C. exists []. left. reflexivity.
  - rewrite C. intros _. exists []. reflexivity.
  - exact H.
  - rewrite Nn. lia.
  - rewrite K. assert (K0 : closes k (told s) = 0%nat). { destruct (i_c _ _ I) as [X|(_ & X1 & _ & X2)]; [exact X|]. destruct Ac as [Ac|Ac]; congruence. }
    rewrite K0. destruct (in_dec (fun a b : tev => ltac:(repeat decide equality)) TShut (c_q (v_conn s k))) as [In0|In0].
    + right. destruct (Y In0) as [Y1 Y2]. rewrite Y2, C. split; [reflexivity|]. split; [exact Y1|]. split; [|reflexivity]. cbn [c_shut].
      destruct (c_shut (v_conn s k)) eqn:Es; [reflexivity|]. destruct (i_o _ _ I Es) as [es Ee]. rewrite Ee in In0. apply in_map_iff in In0. destruct In0 as (x & Ex & _). discriminate.
    + left. rewrite (proj2 (Z In0)). reflexivity.
  - assert (KE : endings k (told s') = (endings k (told s) + endings k l)%nat). { unfold told. rewrite Q, T, !endings_app, own_endings. lia. }
    assert (Z0 : endings k (told s) = 0%nat \/ (endings k (told s) = 1%nat /\ open_for s k = false)).
    { destruct (i_e _ _ I) as [X|(X & [(h & X1 & X2)|(X1 & _ & X2)])]; [auto| |destruct Ac as [Ac|Ac]; congruence]. right. split; [exact X|]. unfold open_for. rewrite X1, X2. reflexivity. }
    assert (Tot : endings k (told s') = 0%nat \/ (endings k (told s') = 1%nat /\ (open_for s k = false \/ endings k l = 1%nat))).
    { rewrite KE. destruct En as [En|[En Oe]], Z0 as [Z0|[Z0 Oz]]; rewrite En, Z0; auto. congruence. }
    destruct Tot as [Tot|[Tot Tc]]; [left; exact Tot|]. right. split; [exact Tot|]. destruct (v_hand s' k) as [h|] eqn:Eh; [left; exists h; split; [reflexivity|]; exact (Eo h eq_refl Tc)|]. right. split; [reflexivity|].
    destruct (in_dec (fun a b : tev => ltac:(repeat decide equality)) TShut (c_q (v_conn s k))) as [In0|In0]; [|destruct (proj1 (Z In0) eq_refl)].
    rewrite C. split; [|reflexivity]. cbn [c_shut].
    destruct (c_shut (v_conn s k)) eqn:Es; [reflexivity|]. destruct (i_o _ _ I Es) as [es Ee]. rewrite Ee in In0. apply in_map_iff in In0. destruct In0 as (x & Ex & _). discriminate.
Qed.
Lemma turn_other left s j k : k <> j -> inv s j -> inv s k -> inv (process_events left s j) k.
Proof.
  intros J Ij I. destruct (turn left s j (i_q _ _ Ij) (i_h _ _ Ij)) as (l & Q & T & Nn & L & _ & O & S & _). destruct (O k J) as [O1 O2]. specialize (S k J).
  assert (K : closes k (told (process_events left s j)) = closes k (told s)). { unfold told. rewrite Q, T, !closes_app, <- (closes_app k (map _ _)), (closes_silent _ _ S). lia. }
  assert (KE : endings k (told (process_events left s j)) = endings k (told s)). { unfold told. rewrite Q, T, !endings_app, <- (endings_app k (map _ _)), (endings_silent _ _ S). lia. }
  destruct I as [a b c d e f]. constructor; rewrite ?O1, ?O2, ?K, ?KE, ?Nn, ?L; assumption.
Qed.

(** All the turns. *)
Lemma turns left : forall ks s, NoDup ks -> (forall k, In k ks -> (k < v_n s)%nat /\ (v_hand s k <> None \/ c_q (v_conn s k) <> [])) -> (forall k, inv s k) ->
  let s' := fold_left (process_events left) ks s in
  (forall k, inv s' k) /\ v_taken s' = v_taken s /\ v_n s' = v_n s /\ v_live s' = v_live s /\ (exists l, v_queue s' = v_queue s ++ l) /\
  (forall k, ~ In k ks -> v_conn s' k = v_conn s k /\ v_hand s' k = v_hand s k /\ exists l, v_queue s' = v_queue s ++ l /\ silent k l) /\
  (forall k, In k ks -> own_of s' k = [] /\ c_q (v_conn s' k) = [] /\ c_shut (v_conn s' k) = c_shut (v_conn s k) /\ (In TShut (c_q (v_conn s k)) -> v_hand s' k = None) /\
     exists l1 l2 l, v_queue s' = v_queue s ++ l1 ++ (map (OOther k) (own_of s k) ++ l) ++ l2 /\ silent k l1 /\ silent k l2 /\ tells k (open_for s k) (c_q (v_conn s k)) l).
Proof.
  induction ks as [|j ks IH]; intros s ND Ac I; cbv zeta; cbn [fold_left].
  - split; [exact I|]. split; [reflexivity|]. split; [reflexivity|]. split; [reflexivity|]. split; [exists []; rewrite app_nil_r; reflexivity|].
    split; [|intros k []]. intros k _. split; [reflexivity|]. split; [reflexivity|]. exists []. rewrite app_nil_r. split; [reflexivity|intros x []].
  - inversion ND as [|? ? Nj ND']; subst. destruct (Ac j (or_introl eq_refl)) as [Lj Aj].
    destruct (turn left s j (i_q _ _ (I j)) (i_h _ _ (I j))) as (l & Q & T & Nn & L & Te & O & S & C & H & Y & Z & _ & _ & Ow). set (s1 := process_events left s j) in *.
    assert (I1 : forall k, inv s1 k). { intro k. destruct (Nat.eq_dec k j) as [->|N]; [exact (turn_inv left s j Lj Aj (I j))|exact (turn_other left s j k N (I j) (I k))]. }
    assert (Ac1 : forall k, In k ks -> (k < v_n s1)%nat /\ (v_hand s1 k <> None \/ c_q (v_conn s1 k) <> [])).
    { intros k Ik. assert (N : k <> j) by congruence. destruct (O k N) as [-> ->]. rewrite Nn. apply Ac. right. exact Ik. }
    destruct (IH s1 ND' Ac1 I1) as (I2 & T2 & N2 & L2 & (lq & Q2) & Un & Do). set (s2 := fold_left (process_events left) ks s1) in *.
    split; [exact I2|]. split; [congruence|]. split; [congruence|]. split; [congruence|]. split; [exists ((map (OOther j) (own_of s j) ++ l) ++ lq); rewrite Q2, Q, !app_assoc; reflexivity|].
    split.
    + intros k Nk. assert (N : k <> j) by (intros ->; apply Nk; left; reflexivity). destruct (Un k) as (U1 & U2 & l2 & U3 & U4); [intro X; apply Nk; right; exact X|]. destruct (O k N) as [O1 O2].
      split; [congruence|]. split; [congruence|]. exists ((map (OOther j) (own_of s j) ++ l) ++ l2). split; [rewrite U3, Q, !app_assoc; reflexivity|]. apply silent_app; [exact (S k N)|exact U4].
    + intros k [<-|Ik].
      * destruct (Un j Nj) as (U1 & U2 & l2 & U3 & U4). rewrite U1, C. split; [unfold own_of in *; rewrite U2; exact Ow|]. split; [reflexivity|]. split; [reflexivity|]. split; [intro X; rewrite U2; exact (proj1 (Y X))|].
        exists [], l2, l. cbn [app]. split; [rewrite U3, Q, !app_assoc; reflexivity|]. split; [intros x []|]. split; [exact U4|exact Te].
      * assert (N : k <> j) by congruence. destruct (O k N) as [O1 O2]. destruct (Do k Ik) as (D0 & D1 & D2 & D3 & l1 & l2 & l' & D4 & D5 & D6 & D7). unfold own_of, open_for in D4, D7. rewrite O1 in *. rewrite O2 in *.
        split; [exact D0|]. split; [exact D1|]. split; [exact D2|]. split; [exact D3|]. exists ((map (OOther j) (own_of s j) ++ l) ++ l1), l2, l'. split; [rewrite D4, Q, !app_assoc; reflexivity|].
        split; [apply silent_app; [exact (S k N)|exact D5]|]. split; [exact D6|exact D7].
Qed.

(** Input and output tell nothing. *)
Lemma fold_push_open : forall es q, (exists a, q = map TEv a) -> exists b, fold_left push (map TEv es) q = map TEv b.
Proof.
  induction es as [|e es IH]; intros q [a ->]; cbn [map fold_left]; [eauto|]. apply IH. destruct e as [n|p r|[]]; cbn [push]; [exists (a ++ [NOther n])|exists (a ++ [NPriority p r])|exists [NEnding true]|exists (a ++ [NEnding false])]; rewrite ?map_app; reflexivity.
Qed.
Lemma input1_inv i s : (forall k, inv s k) -> forall k, inv (input1 s i) k.
Proof.
  intros I k. destruct i as [tm|j es sh tm]; cbn [input1].
  - destruct (i_n _ _ (I (v_n s)) (le_n _)) as (H & L & Q & K & KE). destruct (Nat.eq_dec k (v_n s)) as [->|N].
    + constructor; cbn [v_conn v_hand v_n v_live]; rewrite ?set_same; unfold told in *; cbn [v_taken v_queue].
      * exists []. left. reflexivity.
      * intros _. exists []. reflexivity.
      * rewrite H. discriminate.
      * lia.
      * left. exact K.
      * left. exact KE.
    + destruct (I k) as [a b c d e f]. constructor; cbn [v_conn v_hand v_n v_live]; rewrite ?set_other by exact N; auto. intro Le. apply d. lia.
  - destruct (v_live s j && negb (c_shut (v_conn s j))) eqn:E; [|apply I]. apply andb_prop in E. destruct E as [El Es]. apply negb_true_iff in Es.
    destruct (Nat.eq_dec k j) as [->|N].
    + destruct (I j) as [a b c d e f]. destruct (fold_push_open es _ (b Es)) as [bs Eb]. constructor; cbn [v_conn v_hand v_n v_live]; rewrite ?set_same; unfold told in *; cbn [v_taken v_queue c_q c_shut].
      * unfold qok. cbn [c_q c_shut]. rewrite fold_left_app, Eb. destruct sh; cbn [fold_left push]; [exists []; right; auto|exists bs; left; reflexivity].
      * unfold qopen. cbn [c_q c_shut]. intros ->. rewrite app_nil_r. exists bs. exact Eb.
      * exact c.
      * intro Le. destruct (d Le) as (_ & X & _). congruence.
      * destruct e as [e|(_ & _ & e & _)]; [left; exact e|congruence].
      * destruct f as [f|(f & [f1|(_ & f1 & _)])]; [left; exact f|right; split; [exact f|left; exact f1]|congruence].
    + destruct (I k) as [a b c d e f]. constructor; cbn [v_conn v_hand v_n v_live]; rewrite ?set_other by exact N; auto.
Qed.
Lemma input_inv : forall is s, (forall k, inv s k) -> forall k, inv (input is s) k.
Proof. induction is as [|i is IH]; intros s I; [exact I|]. cbn. apply IH. apply input1_inv. exact I. Qed.
Lemma input_same : forall is s, v_hand (input is s) = v_hand s /\ v_queue (input is s) = v_queue s /\ v_taken (input is s) = v_taken s.
Proof.
  induction is as [|i is IH]; intros s; [auto|]. cbn [input fold_left]. destruct (IH (input1 s i)) as (A & B & C). unfold input in A, B, C. rewrite A, B, C. destruct i; cbn [input1]; [auto|]. destruct (_ && _); auto.
Qed.
Lemma outputs_inv now ans : forall ks s s' b, (forall k, inv s k) -> outputs now ans ks s = (s', b) -> (forall k, inv s' k) /\ v_hand s' = v_hand s /\ v_queue s' = v_queue s /\ v_taken s' = v_taken s.
Proof.
  induction ks as [|j ks IH]; intros s s' b I E; cbn [outputs] in E; [inversion E; subst; auto|]. destruct (negb (v_live s j) || c_shut (v_conn s j)) eqn:El; [exact (IH _ _ _ I E)|].
  apply orb_false_iff in El. destruct El as [El Es]. apply negb_false_iff in El. destruct (fires now (v_conn s j) || _).
  - apply IH in E; [destruct E as (E1 & E2 & E3 & E4); cbn [v_hand v_queue v_taken] in *; auto|]. intro k. destruct (Nat.eq_dec k j) as [->|N].
    + destruct (I j) as [a b0 c d e f]. constructor; cbn [v_conn v_hand v_n v_live]; rewrite ?set_same; unfold told in *; cbn [v_taken v_queue c_q c_shut].
      * exists []. right. auto.
      * intro X. discriminate.
      * exact c.
      * intro Le. destruct (d Le) as (_ & X & _). congruence.
      * destruct e as [e|(_ & _ & e & _)]; [left; exact e|congruence].
      * destruct f as [f|(f & [f1|(_ & f1 & _)])]; [left; exact f|right; split; [exact f|left; exact f1]|congruence].
    + destruct (I k) as [a b0 c d e f]. constructor; cbn [v_conn v_hand v_n v_live]; rewrite ?set_other by exact N; auto.
  - destruct (ans j); [inversion E; subst; auto|exact (IH _ _ _ I E)|exact (IH _ _ _ I E)].
Qed.
Lemma transport_inv now ans s : (forall k, inv s k) -> let s' := transport_output now ans s in (forall k, inv s' k) /\ v_hand s' = v_hand s /\ v_queue s' = v_queue s /\ v_taken s' = v_taken s.
Proof.
  intros I. cbv zeta. unfold transport_output. destruct (outputs now ans (seq 0 (v_n s)) s) as [s1 b] eqn:E. destruct (outputs_inv _ _ _ _ _ _ I E) as (I1 & A). destruct b; [auto|]. split; [|exact A].
  intro k. destruct (I1 k) as [a b c d e f]. constructor; cbn [clean v_conn v_hand v_n v_live]; auto. intro Le. destruct (d Le) as (d1 & d2 & d3 & d4 & d5). rewrite d2. auto.
Qed.
Lemma unmark_inv s : (forall k, inv s k) -> forall k, inv (unmark s) k.
Proof.
  intros I k. destruct (I k) as [a b c d e f]. constructor; cbn [unmark v_conn v_hand v_n v_live]; unfold told in *; cbn [unmark v_queue v_taken] in *; auto.
  - intros h H. destruct (v_hand s k) as [h0|]; [|discriminate]. inversion H; subst. cbn [h_st]. apply c. reflexivity.
  - intro Le. destruct (d Le) as (d1 & d2 & d3 & d4 & d5). rewrite d1. auto.
  - destruct e as [e|(e1 & e2 & e3)]; [auto|]. right. rewrite e2. auto.
  - destruct f as [f|(f & [(h & f1 & f2)|(f1 & f2)])]; [auto| |]; right; rewrite f1; (split; [exact f|]); [left; eexists; split; [reflexivity|exact f2]|right; auto].
Qed.
Lemma selected_asks s k : selected s k = true <-> asks s k.
Proof.
  unfold selected, asks, due. rewrite orb_true_iff, andb_true_iff, negb_true_iff. split; (intros [X|X]; [left|right]).
  - destruct X as [X Y]. split; [exact X|]. intro Z. rewrite Z in Y. discriminate.
  - destruct (v_hand s k) as [h|]; [|discriminate]. exists h. split; [reflexivity|]. rewrite !orb_true_iff, negb_true_iff in X. destruct X as [X|[X|X]]; auto. right. right. intro Z. rewrite Z in X. discriminate.
  - destruct X as [X Y]. split; [exact X|]. destruct (c_q (v_conn s k)); [congruence|reflexivity].
  - destruct X as (h & -> & X). rewrite !orb_true_iff, negb_true_iff. destruct X as [X|[X|X]]; auto. right. right. destruct (h_own h); [congruence|reflexivity].
Qed.
Lemma http3_ok ord left s : (forall k, inv s k) -> NoDup ord ->
  let s' := process_http3 ord left s in
  (forall k, inv s' k) /\ v_taken s' = v_taken s /\
  (forall k, ~ (In k ord /\ asks s k) -> exists l, v_queue s' = v_queue s ++ l /\ silent k l) /\
  (forall k, In k ord -> asks s k -> own_of s' k = [] /\ c_q (v_conn s' k) = [] /\ (In TShut (c_q (v_conn s k)) -> v_hand s' k = None) /\
     exists l1 l2 l, v_queue s' = v_queue s ++ l1 ++ (map (OOther k) (own_of s k) ++ l) ++ l2 /\ silent k l1 /\ silent k l2 /\ tells k (open_for s k) (c_q (v_conn s k)) l).
Proof.
  intros I ND. cbv zeta. unfold process_http3.
  destruct (turns left (filter (selected s) ord) (unmark s)) as (A & B & _ & _ & _ & Un & Do).
  - apply NoDup_filter. exact ND.
  - intros k Ik. apply filter_In in Ik. destruct Ik as [_ Sk]. apply selected_asks in Sk. cbn [unmark v_n v_hand v_conn].
    assert (Lk : (k < v_n s)%nat). { destruct (Nat.lt_ge_cases k (v_n s)) as [X|X]; [exact X|]. destruct (i_n _ _ (I k) X) as (X1 & X2 & X3 & _). destruct Sk as [[Sk _]|(h & Sk & _)]; congruence. }
    split; [exact Lk|]. destruct Sk as [[_ Sk]|(h & Sk & _)]; [right; exact Sk|left; rewrite Sk; discriminate].
  - apply unmark_inv. exact I.
  - split; [exact A|]. split; [exact B|]. split.
    + intros k Nk. destruct (Un k) as (_ & _ & l & X); [|exists l; exact X]. intro Ik. apply Nk. apply filter_In in Ik. rewrite selected_asks in Ik. exact Ik.
    + intros k Ik Ak. destruct (Do k) as (W0 & W1 & _ & X & l1 & l2 & l & Y & Z1 & Z2 & Z3); [apply filter_In; rewrite selected_asks; auto|]. split; [exact W0|]. split; [exact W1|]. split; [exact X|]. exists l1, l2, l.
      replace (own_of s k) with (own_of (unmark s) k) by (unfold own_of; cbn [unmark v_hand]; destruct (v_hand s k); reflexivity).
      replace (open_for s k) with (open_for (unmark s) k) by (unfold open_for; cbn [unmark v_hand]; destruct (v_hand s k); reflexivity). auto.
Qed.
Lemma process_rest r s : (forall k, inv s k) -> NoDup (r_ord r) ->
  let s1 := process_http3 (r_ord r) (r_left r) (input (r_in r) s) in (forall k, inv (process r s) k) /\ v_hand (process r s) = v_hand s1 /\ v_queue (process r s) = v_queue s1 /\ v_taken (process r s) = v_taken s1.
Proof.
  intros I ND. cbv zeta. pose proof (http3_ok (r_ord r) (r_left r) _ (input_inv (r_in r) s I) ND) as (A & _). unfold process. set (s1 := process_http3 (r_ord r) (r_left r) (input (r_in r) s)) in *.
  destruct (r_answered r); [auto|]. destruct (input_same (r_in2 r) s1) as (B1 & B2 & B3). pose proof (input_inv (r_in2 r) s1 A) as A2. destruct (r_answered2 r); [auto|].
  destruct (transport_inv (r_now r) (r_ans r) _ A2) as (C & C1 & C2 & C3). rewrite C1, C2, C3, B1, B2, B3. auto.
Qed.
Lemma step_inv s o : op_ok o -> (forall k, inv s k) -> forall k, inv (step s o) k.
Proof.
  intros Ok I. destruct o as [r|j p own|]; cbn [step op_ok] in *.
  - apply process_rest; assumption.
  - destruct (v_hand s j) as [h|] eqn:E; [|exact I]. intro k. destruct (Nat.eq_dec k j) as [->|N].
    + destruct (I j) as [a b c d e f]. constructor; cbn [v_conn v_hand v_n v_live]; rewrite ?set_same; auto.
      * intros h' X. inversion X; subst. cbn [h_st]. apply c. exact E.
      * intro Le. destruct (d Le) as [X _]. congruence.
      * destruct e as [e|(_ & e & _)]; [left; exact e|congruence].
      * destruct f as [f|(f & [(h' & f1 & f2)|(f1 & _)])]; [left; exact f| |congruence]. right. split; [exact f|]. left. eexists. split; [reflexivity|]. cbn [h_st]. congruence.
    + destruct (I k) as [a b c d e f]. constructor; cbn [v_conn v_hand v_n v_live]; rewrite ?set_other by exact N; auto.
  - destruct (v_queue s) as [|e q] eqn:E; [exact I|]. intro k. assert (T : told (mkS (v_n s) (v_conn s) (v_live s) (v_hand s) q (v_taken s ++ [e])) = told s) by (unfold told; cbn [v_taken v_queue]; rewrite E, <- app_assoc; reflexivity).
    destruct (I k) as [a b c d f g]. constructor; cbn [v_conn v_hand v_n v_live]; rewrite ?T; auto.
Qed.
Lemma run_inv : forall os s, Forall op_ok os -> (forall k, inv s k) -> forall k, inv (run s os) k.
Proof. induction os as [|o os IH]; intros s F I; [exact I|]. inversion F; subst. cbn. apply IH; [assumption|]. apply step_inv; assumption. Qed.
Lemma init_inv : forall k, inv s_init k.
Proof. intro k. constructor; cbn; auto; try (exists []; left; reflexivity); try discriminate. Qed.

(** *** C110.  In each round the application is told, of every connection that asks for it, what its own calls raised and then all that the transport said of
    that connection, in order and once, so that nothing of it is left to tell; the rest of what it is told in the round does not name that connection. *)
Theorem server_tells_connection : forall os r k, Forall op_ok os -> let s := run s_init os in let s0 := input (r_in r) s in
  NoDup (r_ord r) -> In k (r_ord r) -> asks s0 k ->
  exists l1 l l2, told (process r s) = told s ++ l1 ++ map (OOther k) (own_of s k) ++ l ++ l2 /\ silent k l1 /\ silent k l2 /\ tells k (open_for s k) (c_q (v_conn s0 k)) l /\
    own_of (process r s) k = [] /\ c_q (v_conn (process_http3 (r_ord r) (r_left r) s0) k) = [].
Proof.
  intros os r k F s s0 ND Ik Ak. pose proof (run_inv os s_init F init_inv) as I. fold s in I. destruct (process_rest r s I ND) as (_ & Ha & Q & T).
  destruct (input_same (r_in r) s) as (B1 & B2 & B3). fold s0 in Ha, Q, T, B1, B2, B3.
  destruct (http3_ok (r_ord r) (r_left r) s0 (input_inv (r_in r) s I) ND) as (_ & T1 & _ & Do). destruct (Do k Ik Ak) as (W0 & W1 & _ & l1 & l2 & l & X & Y & Z & W).
  unfold own_of, open_for in X, W. rewrite B1 in X, W. exists l1, l, l2. split; [unfold told; rewrite Q, T, T1, X, B2, B3, <- !app_assoc; reflexivity|]. split; [exact Y|]. split; [exact Z|]. split; [exact W|]. split; [|exact W1]. unfold own_of in *. rewrite Ha. exact W0.
Qed.
(** Of a connection that asks for nothing nothing is told. *)
Theorem server_tells_no_other : forall os r k, Forall op_ok os -> let s := run s_init os in NoDup (r_ord r) -> ~ asks (input (r_in r) s) k ->
  exists l, told (process r s) = told s ++ l /\ silent k l.
Proof.
  intros os r k F s ND Ak. pose proof (run_inv os s_init F init_inv) as I. fold s in I. destruct (process_rest r s I ND) as (_ & _ & Q & T).
  destruct (input_same (r_in r) s) as (B1 & B2 & B3). destruct (http3_ok (r_ord r) (r_left r) _ (input_inv (r_in r) s I) ND) as (_ & T1 & Un & _). destruct (Un k) as (l & X & Y); [tauto|].
  exists l. split; [|exact Y]. unfold told. rewrite Q, T, T1, X, B2, B3, app_assoc. reflexivity.
Qed.
(** That a connection is closing, and its end, are each told at most once, and what the server keeps for a connection is gone with its end. *)
Theorem server_closed_once : forall os k, Forall op_ok os -> let s := run s_init os in
  (length (filter (fun e => match e with OEnding j => Nat.eqb j k | _ => false end) (told s)) <= 1)%nat /\
  (length (filter (fun e => match e with OClosed j => Nat.eqb j k | _ => false end) (told s)) <= 1)%nat /\ (In (OClosed k) (told s) -> v_hand s k = None).
Proof.
  intros os k F s. destruct (run_inv os s_init F init_inv k) as [_ _ _ _ e f]. fold s in e, f. unfold closes in e. unfold endings in f. split; [destruct f as [->|[-> _]]; auto|]. split; [destruct e as [->|[-> _]]; auto|]. intro I.
  destruct e as [e|(_ & e & _)]; [|exact e]. exfalso. assert (X : In (OClosed k) (filter (fun e => match e with OClosed j => Nat.eqb j k | _ => false end) (told s))) by (apply filter_In; split; [exact I|apply Nat.eqb_refl]).
  destruct (filter _ (told s)); [destruct X|discriminate].
Qed.
(** What was told stays told, and in its place: only rounds add, at the end, and the application takes the oldest. *)
Theorem server_told_stays : forall os o, Forall op_ok os -> op_ok o -> let s := run s_init os in
  match o with
  | SProcess _ => v_taken (step s o) = v_taken s /\ exists l, v_queue (step s o) = v_queue s ++ l
  | SApp _ _ _ => v_taken (step s o) = v_taken s /\ v_queue (step s o) = v_queue s
  | STake => told (step s o) = told s /\ (v_queue s = [] \/ exists e, v_taken (step s o) = v_taken s ++ [e])
  end.
Proof.
  intros os o F Ok s. pose proof (run_inv os s_init F init_inv) as I. fold s in I. destruct o as [r|k p own|]; cbn [step op_ok] in *.
  - destruct (process_rest r s I Ok) as (_ & _ & Q & T). destruct (input_same (r_in r) s) as (B1 & B2 & B3).
    destruct (http3_ok (r_ord r) (r_left r) _ (input_inv (r_in r) s I) Ok) as (_ & T1 & Un & Do). split; [congruence|].
    rewrite Q, <- B2. destruct (r_ord r) as [|k ks] eqn:E; [exists []; rewrite app_nil_r; reflexivity|].
    destruct (selected (input (r_in r) s) k) eqn:Sk.
    + apply selected_asks in Sk. destruct (Do k (or_introl eq_refl) Sk) as (_ & _ & _ & l1 & l2 & l & X & _). eexists. exact X.
    + destruct (Un k) as (l & X & _); [|exists l; exact X]. intros [_ A]. apply selected_asks in A. congruence.
  - destruct (v_hand s k); auto.
  - destruct (v_queue s) as [|e q] eqn:E; [auto|]. split; [unfold told; cbn [v_taken v_queue]; rewrite E, <- app_assoc; reflexivity|]. right. exists e. reflexivity.
Qed.
(** While the transport server knows a closed connection, and its end was not yet seen, the next round tells it and lets go of what was kept. *)
Theorem server_tells_closed : forall os r k, Forall op_ok os -> let s := run s_init os in let s0 := input (r_in r) s in
  NoDup (r_ord r) -> In k (r_ord r) -> v_live s0 k = true -> In TShut (c_q (v_conn s0 k)) -> In (OClosed k) (told (process r s)) /\ v_hand (process r s) k = None.
Proof.
  intros os r k F s s0 ND Ik Lk Sk. assert (Ak : asks s0 k) by (left; split; [exact Lk|intro X; rewrite X in Sk; destruct Sk]).
  destruct (server_tells_connection os r k F ND Ik Ak) as (l1 & l & l2 & X & _ & _ & W & _). fold s s0 in X, W. split.
  - rewrite X, !in_app_iff. do 3 right. left. clear - W Sk. remember (c_q (v_conn s0 k)) as q eqn:E. clear E. revert Sk. induction W; intros Sk; try (destruct Sk as [Y|Y]; [discriminate|cbn; auto; fail]); [destruct Sk|left; reflexivity].
  - pose proof (run_inv os s_init F init_inv) as I. fold s in I. destruct (process_rest r s I ND) as (_ & H & _). rewrite H. fold s0.
    destruct (http3_ok (r_ord r) (r_left r) s0 (input_inv (r_in r) s I) ND) as (_ & _ & _ & Do). exact (proj1 (proj2 (proj2 (Do k Ik Ak))) Sk).
Qed.

(** But a connection that times out, or whose closing or draining period ends, while the server asks for output is forgotten by the transport server in the same
    round, if nothing is sent. Then, unless the application calls on it, its end is never told, and what is kept for it stays for ever. *)
Definition quiet_round (is : list inp) (ord : list nat) (now : N) : op := SProcess (mkR is false ord (fun _ => false) [] false now (fun _ => AQuiet)).
Definition leak : list op := [quiet_round [INew (Some 30%N); IAt 0 [NOther 1] false (Some 30%N)] [0%nat] 1; quiet_round [] [0%nat] 30].
Definition lost (s : srv) (k : nat) : Prop := v_live s k = false /\ c_shut (v_conn s k) = true /\ (k < v_n s)%nat /\ v_hand s k = Some (mkH HOpen false false []) /\ ~ In (OClosed k) (told s).
Lemma lost_input : forall is s k, lost s k -> lost (input is s) k.
Proof.
  induction is as [|i is IH]; intros s k L; [exact L|]. cbn. apply IH. destruct L as (A & B & C & D & E). destruct i as [tm|j es sh tm]; cbn [input1].
  - unfold lost. cbn [v_live v_conn v_n v_hand told v_taken v_queue]. rewrite !set_other by lia. repeat split; auto.
  - destruct (v_live s j && negb (c_shut (v_conn s j))) eqn:El; [|repeat split; auto]. apply andb_prop in El. destruct El as [El _]. assert (N : k <> j) by congruence.
    unfold lost. cbn [v_live v_conn v_n v_hand told v_taken v_queue]. rewrite !set_other by exact N. repeat split; auto.
Qed.
Lemma lost_outputs now ans k : forall ks s s' b, lost s k -> outputs now ans ks s = (s', b) -> lost s' k.
Proof.
  induction ks as [|j ks IH]; intros s s' b L E; cbn [outputs] in E; [inversion E; subst; exact L|]. destruct (negb (v_live s j) || c_shut (v_conn s j)) eqn:El; [exact (IH _ _ _ L E)|].
  apply orb_false_iff in El. destruct El as [El _]. apply negb_false_iff in El. destruct (fires now (v_conn s j) || _).
  - apply IH in E; [exact E|]. destruct L as (A & B & C & D & F). assert (N : k <> j) by congruence. unfold lost. cbn [v_live v_conn v_n v_hand told v_taken v_queue]. rewrite !set_other by exact N. repeat split; auto.
  - destruct (ans j); [inversion E; subst; exact L|exact (IH _ _ _ L E)|exact (IH _ _ _ L E)].
Qed.
Lemma lost_http3 ord left s k : (forall j, inv s j) -> NoDup ord -> lost s k -> lost (process_http3 ord left s) k.
Proof.
  intros I ND (A & B & C & D & E). unfold process_http3.
  destruct (turns left (filter (selected s) ord) (unmark s)) as (_ & T & N & L & _ & Un & _).
  - apply NoDup_filter. exact ND.
  - intros j Ij. apply filter_In in Ij. destruct Ij as [_ Sk]. apply selected_asks in Sk. cbn [unmark v_n v_hand v_conn].
    assert (Lk : (j < v_n s)%nat). { destruct (Nat.lt_ge_cases j (v_n s)) as [X|X]; [exact X|]. destruct (i_n _ _ (I j) X) as (X1 & X2 & X3 & _). destruct Sk as [[Sk _]|(h & Sk & _)]; congruence. }
    split; [exact Lk|]. destruct Sk as [[_ Sk]|(h & Sk & _)]; [right; exact Sk|left; rewrite Sk; discriminate].
  - apply unmark_inv. exact I.
  - destruct (Un k) as (U1 & U2 & l & U3 & U4).
    { intro Ik. apply filter_In in Ik. destruct Ik as [_ Ik]. unfold selected in Ik. rewrite A, D in Ik. discriminate. }
    unfold lost. rewrite U1, U2, N, L. cbn [unmark v_live v_conn v_n v_hand]. rewrite D. split; [exact A|]. split; [exact B|]. split; [exact C|]. split; [reflexivity|].
    unfold told. rewrite T, U3. cbn [unmark v_taken v_queue]. rewrite app_assoc, in_app_iff. intros [X|X]; [exact (E X)|exact (U4 _ X eq_refl)].
Qed.
Lemma lost_step s o k : (forall j, inv s j) -> op_ok o -> (forall p own, o <> SApp k p own) -> lost s k -> lost (step s o) k.
Proof.
  intros I Ok Na L. destruct o as [r|j p own|]; cbn [step op_ok] in *.
  - pose proof (lost_http3 (r_ord r) (r_left r) _ k (input_inv (r_in r) s I) Ok (lost_input _ _ _ L)) as L1. unfold process. destruct (r_answered r); [exact L1|].
    apply (lost_input (r_in2 r)) in L1. destruct (r_answered2 r); [exact L1|]. unfold transport_output. destruct (outputs _ _ _ _) as [s2 b] eqn:E. apply lost_outputs with (k := k) in E; [|exact L1].
    destruct b; [exact E|]. destruct E as (A & B & C & D & F). unfold lost. cbn [clean v_live v_conn v_n v_hand told v_taken v_queue]. rewrite A. repeat split; auto.
  - destruct L as (A & B & C & D & E). assert (N : k <> j) by (intros ->; exact (Na p own eq_refl)). destruct (v_hand s j) as [h|]; [|repeat split; auto]. unfold lost. cbn [v_live v_conn v_n v_hand told v_taken v_queue].
    rewrite !set_other by exact N. repeat split; auto.
  - destruct L as (A & B & C & D & E). destruct (v_queue s) as [|e q] eqn:Q; [repeat split; auto|]. unfold lost, told in *. cbn [v_live v_conn v_n v_hand v_taken v_queue]. rewrite <- app_assoc. cbn [app]. rewrite Q in E. repeat split; auto.
Qed.
Theorem server_tells_closed_refuted : Forall op_ok leak /\ In (OOther 0 1) (told (run s_init leak)) /\ c_shut (v_conn (run s_init leak) 0) = true /\
  forall os, Forall op_ok os -> (forall p own, ~ In (SApp 0 p own) os) ->
    ~ In (OClosed 0) (told (run s_init (leak ++ os))) /\ v_hand (run s_init (leak ++ os)) 0 <> None /\ v_live (run s_init (leak ++ os)) 0 = false.
Proof.
  assert (F : Forall op_ok leak) by (repeat constructor; cbn; tauto). split; [exact F|]. split; [vm_compute; auto|]. split; [reflexivity|].
  assert (L0 : lost (run s_init leak) 0). { unfold lost. split; [reflexivity|]. split; [reflexivity|]. split; [vm_compute; lia|]. split; [reflexivity|]. vm_compute. intros [X|[]]. discriminate. }
  intros os Fo Na. unfold run at 1 2 3. rewrite fold_left_app. fold (run s_init leak). pose proof (run_inv leak s_init F init_inv) as I. revert L0 I. generalize (run s_init leak) as s.
  induction Fo as [|o os Oo Fo IH]; intros s L0 I; cbn [fold_left]; [destruct L0 as (A & _ & _ & D & E); rewrite D; split; [exact E|]; split; [discriminate|exact A]|].
  apply IH; [intros p own X; apply (Na p own); right; exact X| |apply step_inv; assumption]. apply lost_step; auto. intros p own ->. apply (Na p own). left. reflexivity.
Qed.
(** A priority update does not say of which connection it is. *)
Theorem server_priority_refuted :
  let two := [INew None; INew None] in let f k := run s_init [quiet_round (two ++ [IAt k [NPriority 4 1] false None]) [0%nat; 1%nat] 1] in
  told (f 0%nat) = [OPriority 4 1] /\ told (f 1%nat) = told (f 0%nat).
Proof. vm_compute. auto. Qed.
Example server_case : let s := run s_init [quiet_round [INew (Some 30%N); INew None; IAt 0 [NOther 7; NEnding false] false (Some 20%N); IAt 1 [NOther 8] false None] [1%nat; 0%nat] 1; STake;
     SProcess (mkR [] false [0%nat; 1%nat] (fun _ => false) [] false 20 (fun k => if Nat.eqb k 1 then ASend else AQuiet)); quiet_round [] [1%nat; 0%nat] 21] in
  v_taken s = [OOther 1 8] /\ v_queue s = [OOther 0 7; OEnding 0; OClosed 0] /\ v_hand s 0 = None /\ v_live s 0 = false /\ v_hand s 1 = Some (mkH HOpen false false []).
Proof. vm_compute. auto. Qed.
Print Assumptions server_tells_connection.
Print Assumptions server_tells_no_other.
Print Assumptions server_closed_once.
Print Assumptions server_told_stays.
Print Assumptions server_tells_closed.
Print Assumptions server_tells_closed_refuted.
Print Assumptions server_priority_refuted.
