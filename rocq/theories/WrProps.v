(** Receiving on a WebTransport stream (property C112). *)
From Coq Require Import NArith List Bool Lia.
From Verif Require Import Base CodecModel CodecProofs HfModel WtModel WrModel WrSpec.
Import ListNotations.
Open Scope N_scope.

Lemma take_split n (l : list N) : firstn (N.to_nat (N.min n (lenN l))) l ++ skipn (N.to_nat (N.min n (lenN l))) l = l.
Proof. apply firstn_skipn. Qed.

Lemma run_cons s o os s2 l : wr_run s (o :: os) = (s2, l) -> exists s1 a l', wr_step s o = (s1, a) /\ wr_run s1 os = (s2, l') /\ l = (o, a) :: l'.
Proof. cbn. destruct (wr_step s o) as [s1 a]. destruct (wr_run s1 os) as [s3 l'] eqn:E. intros H; injection H as <- <-. eauto 6. Qed.

(** *** What is read is what arrived, in order. *)
Lemma reads_gen os : forall s s2 l, wr_run s os = (s2, l) ->
  r_avail s ++ (if r_end s then [] else arrived l) = reads l ++ r_avail s2 /\ r_end s2 = r_end s || ended l.
Proof.
  induction os as [|o os IH]; intros s s2 l R.
  - cbn in R. injection R as <- <-. cbn. destruct (r_end s); rewrite app_nil_r; auto.
  - destruct (run_cons _ _ _ _ _ R) as (s1 & a & l' & E & R' & ->). clear R. specialize (IH _ _ _ R'). destruct IH as [A B].
    destruct o; cbn in E.
    + unfold wr_arrive in E. destruct (r_end s) eqn:En; injection E as <- <-; cbn in *.
      * rewrite En in *. cbn in *. auto.
      * split; [|exact B]. rewrite <- A, <- app_assoc. destruct fin; cbn; reflexivity.
    + unfold wr_confirm in E. destruct (r_phase s); injection E as <- <-; cbn in *; auto.
    + unfold wr_read in E. destruct (r_here s); cbn in E; injection E as <- <-; cbn in *; auto.
      split; [|exact B]. rewrite <- app_assoc, <- A, app_assoc, firstn_skipn. reflexivity.
    + unfold wr_close in E. destruct (r_here s); injection E as <- <-; cbn in *; auto.
    + unfold wr_close in E. destruct (r_here s); injection E as <- <-; cbn in *; auto.
    + unfold wr_over, wr_close in E. destruct (r_phase s), (r_reg s), (r_here s); injection E as <- <-; cbn in *; auto.
Qed.
(** The session has the stream exactly while the connection does; once neither, no reading and no report. *)
Definition wr_ok (s : wrs) : Prop := r_reg s = r_here s.
Lemma ok_step s o s1 a : wr_ok s -> wr_step s o = (s1, a) -> wr_ok s1.
Proof.
  unfold wr_ok. intros H E. destruct o; cbn in E; unfold wr_arrive, wr_confirm, wr_read, wr_over, wr_close in E.
  - destruct (r_end s); injection E as <- _; cbn; auto.
  - destruct (r_phase s); injection E as <- _; cbn; auto.
  - rewrite H in E. destruct (r_here s) eqn:X; cbn in E; injection E as <- _; cbn; auto; congruence.
  - destruct (r_here s) eqn:X; injection E as <- _; cbn; congruence.
  - destruct (r_here s) eqn:X; injection E as <- _; cbn; congruence.
  - rewrite H in E. destruct (r_phase s), (r_here s) eqn:X; injection E as <- _; cbn; congruence.
Qed.
Lemma gone_gen os : forall s s2 l, wr_ok s -> r_here s = false -> wr_run s os = (s2, l) -> reads l = [] /\ fins l = 0%nat /\ closes l = 0%nat /\ r_here s2 = false.
Proof.
  induction os as [|o os IH]; intros s s2 l K H R.
  - cbn in R. injection R as <- <-. auto.
  - destruct (run_cons _ _ _ _ _ R) as (s1 & a & l' & E & R' & ->). clear R.
    pose proof (ok_step _ _ _ _ K E) as K1. unfold wr_ok in K. rewrite H in K.
    assert (H1 : r_here s1 = false /\ snd a <> RaNone /\ (forall b f, snd a <> RaData b f) /\ fst a = [] \/ r_here s1 = false /\ snd a = RaNone /\ filter is_closed (fst a) = []).
    { destruct o; cbn in E; unfold wr_arrive, wr_confirm, wr_read, wr_over, wr_close in E; rewrite ?H, ?K in E; cbn in E.
      - right. destruct (r_end s); injection E as <- <-; cbn; auto. destruct (r_phase s); auto.
      - right. destruct (r_phase s); injection E as <- <-; cbn; auto.
      - left. injection E as <- <-. cbn. repeat split; auto; discriminate.
      - right. injection E as <- <-. auto.
      - right. injection E as <- <-. auto.
      - right. destruct (r_phase s); injection E as <- <-; cbn; auto. }
    destruct a as [v an]. cbn in H1.
    destruct H1 as [(H1 & N1 & N2 & ->)|(H1 & -> & F)]; destruct (IH _ _ _ K1 H1 R') as (A & B & C & D).
    + unfold closes in *. cbn. destruct an; auto. exfalso. eapply N2. reflexivity.
    + unfold closes in *. cbn. rewrite filter_app, F. auto.
Qed.
Lemma fins_gen os : forall s s2 l, wr_ok s -> wr_run s os = (s2, l) ->
  (fins l + closes l <= 1)%nat /\ (fins l = 1%nat -> r_avail s2 = [] \/ reads l ++ r_avail s2 = r_avail s ++ (if r_end s then [] else arrived l)) /\
  (fins l = 1%nat -> r_end s2 = true /\ r_avail s2 = []) /\ (r_here s2 = true -> fins l = 0%nat /\ closes l = 0%nat).
Proof.
  induction os as [|o os IH]; intros s s2 l K R.
  - cbn in R. injection R as <- <-. cbn. repeat split; try lia; discriminate.
  - pose proof (reads_gen _ _ _ _ R) as [RG RE].
    destruct (run_cons _ _ _ _ _ R) as (s1 & a & l' & E & R' & ->). clear R. pose proof (ok_step _ _ _ _ K E) as K1.
    assert (Same : fins ((o, a) :: l') = fins l' /\ closes ((o, a) :: l') = closes l' \/
      (r_here s1 = false /\ (fins ((o, a) :: l') = S (fins l') /\ closes ((o, a) :: l') = closes l' /\ r_end s1 = true /\ r_avail s1 = [] \/
                            fins ((o, a) :: l') = fins l' /\ closes ((o, a) :: l') = S (closes l')))).
    { unfold closes. cbn. rewrite filter_app, app_length.
      destruct o; cbn in E; unfold wr_arrive, wr_confirm, wr_read, wr_over, wr_close in E.
      - destruct (r_end s); injection E as <- <-; cbn; auto. destruct (r_phase s), (r_here s); cbn; auto.
      - destruct (r_phase s); injection E as <- <-; cbn; auto.
      - destruct (r_here s); cbn in E; injection E as <- <-; cbn; auto.
        destruct (r_end s); cbn; auto. destruct (skipn _ (r_avail s)); cbn; auto. right. auto 10.
      - destruct (r_here s); injection E as <- <-; cbn; auto.
      - destruct (r_here s) eqn:X; injection E as <- <-; cbn; auto.
      - destruct (r_phase s), (r_reg s), (r_here s) eqn:X; injection E as <- <-; cbn; auto. }
    destruct (IH _ _ _ K1 R') as (A & _ & C & D).
    assert (Av : fins ((o, a) :: l') = 1%nat -> r_end s2 = true).
    { intros Hf. destruct Same as [[S1 S2]|(G & [(S1 & S2 & S3 & S4)|(S1 & S2)])].
      - apply C. congruence.
      - destruct (reads_gen _ _ _ _ R') as [_ Q]. rewrite Q, S3. reflexivity.
      - apply C. congruence. }
    assert (Ae : fins ((o, a) :: l') = 1%nat -> r_avail s2 = []).
    { intros Hf. destruct Same as [[S1 S2]|(G & [(S1 & S2 & S3 & S4)|(S1 & S2)])].
      - apply C. congruence.
      - destruct (reads_gen _ _ _ _ R') as [Q _]. rewrite S3, S4 in Q. destruct (gone_gen _ _ _ _ K1 G R') as (Z & _). rewrite Z in Q. cbn in Q. auto.
      - apply C. congruence. }
    split; [|split; [|split]].
    + destruct Same as [[-> ->]|(G & S)]; [exact A|]. destruct (gone_gen _ _ _ _ K1 G R') as (_ & Z1 & Z2 & _). lia.
    + intros Hf. left. auto.
    + auto.
    + intros Hh. destruct Same as [[-> ->]|(G & S)]; [auto|]. destruct (gone_gen _ _ _ _ K1 G R') as (_ & _ & _ & Z). congruence.
Qed.

(** *** For every history of arrivals, reads, resets and session events: what the application read is the beginning of
    what the peer sent, in order; it is told it has everything only when it has, once, and then nothing else; a stream
    is reported closed at most once, and not if it was read to the end. *)
Theorem wt_recv_bytes : forall active os s l, wr_run (fst (wr_new active)) os = (s, l) ->
  (exists rest, arrived l = reads l ++ rest) /\ (fins l + closes l <= 1)%nat /\ (fins l = 1%nat -> ended l = true /\ reads l = arrived l).
Proof.
  intros active os s l R. destruct (reads_gen _ _ _ _ R) as [A B]. cbn in A, B.
  assert (K : wr_ok (fst (wr_new active))) by reflexivity.
  destruct (fins_gen _ _ _ _ K R) as (F1 & _ & F2 & _). split; [eexists; exact A|]. split; [exact F1|].
  intros F. destruct (F2 F) as [G1 G2]. rewrite G2, app_nil_r in A. split; congruence.
Qed.

(** *** While the session is active and the stream open, the application was told of the last arrival, also of one that
    came before the session was confirmed. *)
Definition wr_told_inv (s : wrs) (b : bool) : Prop := r_phase s = RpActive -> r_here s = true -> b = true \/ (r_avail s = [] /\ r_end s = false).
Lemma told_gen os : forall s s2 l b, wr_told_inv s b -> wr_run s os = (s2, l) -> wr_told_inv s2 (told (r_end s) b l).
Proof.
  induction os as [|o os IH]; intros s s2 l b K R.
  - cbn in R. injection R as <- <-. exact K.
  - destruct (run_cons _ _ _ _ _ R) as (s1 & a & l' & E & R' & ->). destruct a as [v an]. clear R.
    assert (G : forall e b', wr_told_inv s1 b' -> e = r_end s1 -> wr_told_inv s2 (told e b' l')) by (intros e b' Q ->; eapply IH; eauto).
    clear IH R'. unfold wr_told_inv in K.
    destruct o; cbn in E; unfold wr_arrive, wr_confirm, wr_read, wr_over, wr_close in E; cbn [told].
    + destruct (r_end s) eqn:En; injection E as <- <- <-; cbn [existsb orb].
      * apply G; [|auto]. unfold wr_told_inv. rewrite En. exact K.
      * apply G; [|auto]. unfold wr_told_inv. cbn. intros -> ->. cbn. auto.
    + destruct (r_phase s) eqn:P; injection E as <- <- <-; cbn [existsb orb]; apply G; auto; unfold wr_told_inv; cbn; auto; rewrite P; auto.
    + destruct (r_here s) eqn:H; cbn in E; injection E as <- <- <-; cbn [existsb orb]; apply G; auto; unfold wr_told_inv; cbn; [|rewrite H; discriminate].
      intros P _. destruct (K P eq_refl) as [->|[A B]]; [auto|]. right. rewrite A. split; [apply skipn_nil|exact B].
    + destruct (r_here s) eqn:H; injection E as <- <- <-; cbn [existsb orb]; apply G; auto; unfold wr_told_inv; cbn; [discriminate|rewrite H; discriminate].
    + destruct (r_here s) eqn:H; injection E as <- <- <-; cbn [existsb orb]; apply G; auto; unfold wr_told_inv; cbn; [discriminate|rewrite H; discriminate].
    + destruct (r_phase s) eqn:P, (r_reg s), (r_here s) eqn:H; injection E as <- <- <-; cbn [existsb orb]; apply G; auto; unfold wr_told_inv; cbn; try discriminate; rewrite ?P, ?H; try discriminate.
Qed.
Theorem wt_recv_told : forall active os s l, wr_run (fst (wr_new active)) os = (s, l) ->
  r_phase s = RpActive -> r_here s = true -> told false false l = true \/ (arrived l = reads l /\ ended l = false).
Proof.
  intros active os s l R P H. destruct (reads_gen _ _ _ _ R) as [A B]. cbn in A, B.
  assert (K : wr_told_inv (fst (wr_new active)) false) by (intros _ _; right; split; reflexivity).
  destruct (told_gen _ _ _ _ _ K R P H) as [T|[T1 T2]]; [left; exact T|]. right. rewrite T1, app_nil_r in A. rewrite B in T2. auto.
Qed.
(** A stream whose end was neither reported nor read, and that the application did not stop, is open; and an open stream
    answers a read with bytes whenever there are some. *)
Theorem wt_recv_progress : forall active os s l n, wr_run (fst (wr_new active)) os = (s, l) -> r_here s = true -> 0 < n ->
  (arrived l <> reads l -> exists b f s', b <> [] /\ wr_read s n = (s', RaData b f)) /\
  (ended l = true -> lenN (arrived l) <= lenN (reads l) + n -> exists b s', wr_read s n = (s', RaData b true)).
Proof.
  intros active os s l n R H Hn. destruct (reads_gen _ _ _ _ R) as [A B]. cbn in A, B. unfold wr_read. rewrite H. cbn. split.
  - intros Ne. do 3 eexists. split; [|reflexivity]. destruct (r_avail s) as [|x r] eqn:Q; [rewrite app_nil_r in A; congruence|].
    replace (N.to_nat (N.min n (lenN (x :: r)))) with (S (N.to_nat (N.min n (lenN (x :: r))) - 1)); [cbn; discriminate|]. unfold lenN. cbn [length]. lia.
  - intros En Hl. rewrite B, En. rewrite A in Hl. unfold lenN in Hl. rewrite app_length in Hl.
    rewrite skipn_all2; [|unfold lenN; lia]. cbn. eauto.
Qed.
Lemma gone_why os : forall s s2 l, wr_ok s -> r_here s = true -> wr_run s os = (s2, l) -> r_here s2 = false ->
  fins l = 1%nat \/ closes l = 1%nat \/ exists e, In (RStop e) os.
Proof.
  induction os as [|o os IH]; intros s s2 l K H R G.
  - cbn in R. injection R as <- <-. congruence.
  - pose proof (fins_gen _ _ _ _ K R) as (F & _).
    destruct (run_cons _ _ _ _ _ R) as (s1 & a & l' & E & R' & ->). clear R. pose proof (ok_step _ _ _ _ K E) as K1.
    destruct (r_here s1) eqn:H1.
    + destruct (IH _ _ _ K1 H1 R' G) as [Q|[Q|(e & Q)]].
      * left. cbn in *. destruct a as [v [| |]]; auto. destruct fin; auto. lia.
      * right. left. unfold closes in *. cbn in *. rewrite filter_app, app_length in *. lia.
      * right. right. exists e. right. exact Q.
    + clear IH. unfold wr_ok in K. unfold closes in *. cbn in F |- *. rewrite filter_app, app_length in *.
      destruct o; cbn in E; unfold wr_arrive, wr_confirm, wr_read, wr_over, wr_close in E; rewrite ?K, ?H in E; cbn in E.
      * destruct (r_end s); injection E as <- _; cbn in H1; congruence.
      * destruct (r_phase s); injection E as <- _; cbn in H1; congruence.
      * injection E as <- <-. cbn in *. left. apply negb_false_iff in H1. rewrite H1 in *. lia.
      * right. right. eexists. left. reflexivity.
      * injection E as <- <-. cbn in *. right. left. lia.
      * destruct (r_phase s); injection E as <- <-; cbn in *; [right; left; lia|right; left; lia|congruence].
Qed.
Theorem wt_recv_stays : forall active os s l, wr_run (fst (wr_new active)) os = (s, l) -> r_here s = false ->
  fins l = 1%nat \/ closes l = 1%nat \/ exists e, In (RStop e) os.
Proof. intros active os s l R G. eapply gone_why; [| |exact R|exact G]; reflexivity. Qed.

(** *** The application is told of the stream at most once, and exactly once if the session is active. *)
Lemma over_stays os : forall s s2 l, r_phase s = RpOver -> wr_run s os = (s2, l) -> r_phase s2 <> RpActive.
Proof.
  induction os as [|o os IH]; intros s s2 l P R.
  - cbn in R. injection R as <- <-. congruence.
  - destruct (run_cons _ _ _ _ _ R) as (s1 & a & l' & E & R' & ->). eapply IH; [|exact R'].
    destruct o; cbn in E; unfold wr_arrive, wr_confirm, wr_read, wr_over, wr_close in E; rewrite ?P in E;
      try (destruct (r_end s)); try (destruct (r_here s)); cbn in E; injection E as <- _; auto.
Qed.
Lemma news_gen os : forall s s2 l, wr_run s os = (s2, l) ->
  (r_phase s <> RpNegotiating -> news l = 0%nat) /\ (news l <= 1)%nat /\ (r_phase s = RpNegotiating -> r_phase s2 = RpActive -> news l = 1%nat).
Proof.
  induction os as [|o os IH]; intros s s2 l R.
  - cbn in R. injection R as <- <-. cbn. repeat split; auto; congruence.
  - destruct (run_cons _ _ _ _ _ R) as (s1 & a & l' & E & R' & ->). clear R. specialize (IH _ _ _ R'). destruct IH as (A & B & C).
    unfold news in *. cbn. rewrite filter_app, app_length.
    destruct o; cbn in E; unfold wr_arrive, wr_confirm, wr_read, wr_over, wr_close in E.
    + destruct (r_end s); injection E as <- <-; cbn in *; auto. destruct (r_phase s), (r_here s); cbn in *; auto.
    + destruct (r_phase s) eqn:P; injection E as <- <-; cbn in *; rewrite ?P in *; auto.
      rewrite A by discriminate. repeat split; auto; congruence.
    + destruct (r_here s); cbn in E; injection E as <- <-; cbn in *; auto.
    + destruct (r_here s); injection E as <- <-; cbn in *; auto.
    + destruct (r_here s); injection E as <- <-; cbn in *; auto.
    + destruct (r_phase s) eqn:P.
      3: { injection E as <- <-. cbn. rewrite P in *. auto. }
      1: { assert (P1 : r_phase s1 = RpOver) by (destruct (r_reg s), (r_here s); injection E as <- _; reflexivity).
           assert (V : filter is_new (fst a) = []) by (destruct (r_reg s), (r_here s); injection E as _ <-; reflexivity).
           rewrite V. cbn. repeat split; auto. intros _ Q. exfalso. exact (over_stays _ _ _ _ P1 R' Q). }
      assert (P1 : r_phase s1 = RpOver) by (destruct (r_reg s), (r_here s); injection E as <- _; reflexivity).
      assert (V : filter is_new (fst a) = []) by (destruct (r_reg s), (r_here s); injection E as _ <-; reflexivity).
      rewrite V. cbn. rewrite A by congruence. repeat split; auto; congruence.
Qed.
Theorem wt_recv_new_once : forall active os s l, wr_run (fst (wr_new active)) os = (s, l) ->
  let n := (length (filter is_new (snd (wr_new active))) + news l)%nat in (n <= 1)%nat /\ (r_phase s = RpActive -> n = 1%nat).
Proof.
  intros active os s l R. destruct (news_gen _ _ _ _ R) as (A & B & C). destruct active; cbn in *.
  - rewrite A by discriminate. auto.
  - auto.
Qed.
(** *** Statistics: on a client, of the server's stream, what is counted is the application's. *)
Theorem wt_recv_stats_client : forall uni sid p data n, wt_preface uni sid = Some p -> n <= lenN data ->
  wr_stat true uni sid (lenN (p ++ firstn (N.to_nat n) data)) = Some n.
Proof.
  intros uni sid p data n E Hn. unfold wt_preface in E. unfold wr_stat.
  destruct (varint_bytes (if uni then WT_UNI else WT_BIDI)) as [x|] eqn:X; [|discriminate]. destruct (varint_bytes sid) as [y|] eqn:Y; [|discriminate].
  cbn in E. injection E as <-. rewrite (varint_bytes_len _ _ X), (varint_bytes_len _ _ Y). cbn. f_equal.
  unfold lenN in *. rewrite !app_length, firstn_length. lia.
Qed.
(** On a server, of the client's stream, the bytes that name the session are counted too; and on a client, of what the
    server sends on a stream the client opened, which begins with none, all is counted. *)
Theorem wt_recv_stats_server_refuted : exists sid p, wt_preface true sid = Some p /\ wr_stat false true sid (lenN (p ++ [1; 2])) <> Some 2.
Proof. exists 0, [0x40; 0x54; 0]. split; [reflexivity|vm_compute; discriminate]. Qed.
(** A stream of the server that ended before the client's session was confirmed is told new and readable afterwards,
    though it is gone: reading it is refused. *)
Theorem wt_recv_told_gone_refuted : exists os s l, wr_run (fst (wr_new false)) os = (s, l) /\ r_phase s = RpActive /\
  (exists l1, l = l1 ++ [(RConfirm, ([RvNew; RvReadable], RaNone))] /\ closes l1 = 1%nat) /\ forall n, snd (wr_read s n) = RaRefused.
Proof.
  exists [RArrive [1; 2] false; RPeerReset 7; RConfirm]. do 2 eexists. split; [reflexivity|]. split; [reflexivity|]. split; [|reflexivity].
  eexists [(RArrive [1; 2] false, _); (RPeerReset 7, _)]. split; reflexivity.
Qed.

Example wr_example : let '(s, l) := wr_run (fst (wr_new false)) [RArrive [1; 2] false; RConfirm; RRead 1; RArrive [3] true; RRead 9; RRead 9] in
  reads l = [1; 2; 3] /\ fins l = 1%nat /\ closes l = 0%nat /\ told false false l = true /\ ended l = true /\ map (fun x => snd (snd x)) l = [RaNone; RaNone; RaData [1] false; RaNone; RaData [2; 3] true; RaRefused].
Proof. vm_compute. auto 10. Qed.

Print Assumptions wt_recv_bytes.
Print Assumptions wt_recv_told.
Print Assumptions wt_recv_progress.
Print Assumptions wt_recv_stays.
Print Assumptions wt_recv_new_once.
Print Assumptions wt_recv_stats_client.
Print Assumptions wt_recv_stats_server_refuted.
Print Assumptions wt_recv_told_gone_refuted.
