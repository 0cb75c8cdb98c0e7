(** C95: every stream the peer opens is told apart by its first bytes, however they arrive. *)
From Verif Require Import Base Lib CodecModel Reader CodecSpec IncrProofs HfModel HfProofs HtModel HtSpec HtProofs.
Open Scope N_scope.
Open Scope list_scope.
Import ListNotations.

(** Bytes arrive. *)
Definition tev_ok (e : tev) : Prop := match e with TArr b => bytes_ok b | _ => True end.

(** The reader never panics nor reads past the end of a stream. A kind is announced only if the bytes received say so, and exactly the bytes
    after the head are left in the stream; if it also saw the stream end, only kinds that may end at once are announced. An error is raised
    only when the head is forbidden, or the stream has ended with a head that may not end there, and is the one due. *)
Theorem stream_head uni server es : Forall tev_ok es -> exists w, t_run uni server t_init es = Some w /\
  match t_status w with
  | TReading => True
  | TKnown t => head_of uni server (t_all w) = Yes t (concat (s_chunks (t_src w))) /\
      (s_over (t_src w) = true -> ends_as (head_of uni server (t_all w)) = None)
  | TFailed e => head_of uni server (t_all w) = No e \/
      (s_fin (t_src w) = true /\ ends_as (head_of uni server (t_all w)) = Some e)
  end.
Proof.
  intros F. destruct (t_run_ok uni server es t_init) as (w & E & I).
  - eapply Forall_impl; [|exact F]. intros a Ha b ->. exact Ha.
  - apply tinv_init.
  - exists w. split; [exact E|]. destruct I as (_ & _ & Hov & _ & Ho). destruct (t_status w); auto. destruct Ho as [?|(A & _ & C)]; auto.
Qed.
Print Assumptions stream_head.

(** Nor does it wait without need: once asked, it goes on waiting only if the bytes received do not yet make a head and the stream has
    not ended. *)
Theorem stream_head_prompt uni server es w : Forall tev_ok es -> t_run uni server t_init es = Some w -> t_asked w = true -> t_status w = TReading ->
  head_of uni server (t_all w) = More /\ s_fin (t_src w) = false.
Proof.
  intros F E A S. destruct (t_run_ok uni server es t_init) as (w2 & E2 & I).
  - eapply Forall_impl; [|exact F]. intros a Ha b ->. exact Ha.
  - apply tinv_init.
  - rewrite E in E2. injection E2 as <-. destruct I as (_ & _ & _ & Hr & _). destruct (Hr S) as (_ & R & Q). destruct (Q A) as [Q1 Q2]. rewrite Q1 in R.
    split; [eapply head_more; exact R|exact Q2].
Qed.
Print Assumptions stream_head_prompt.

(** The bytes received are those that arrived before the end and before the answer. *)
Fixpoint arrivals (es : list tev) : list N := match es with [] => [] | TArr b :: es' => b ++ arrivals es' | TFin :: _ => [] | TAsk :: es' => arrivals es' end.
Theorem stream_head_bytes uni server es w : t_run uni server t_init es = Some w -> exists later, arrivals es = t_all w ++ later /\ (t_status w = TReading -> later = []).
Proof.
  assert (G : forall es w0 w, t_run uni server w0 es = Some w -> exists later, (t_all w0 ++ if s_fin (t_src w0) then [] else arrivals es) = t_all w ++ later /\
    (t_status w = TReading -> s_fin (t_src w0) = false -> later = []) /\ (t_status w0 <> TReading -> w = w0) /\ (t_status w = TReading -> s_fin (t_src w0) = true -> later = [])).
  { assert (Gt : forall h s r h' s' n, get_type n uni server h s = (r, h', s') -> s_fin s' = s_fin s).
    { assert (Rd : forall s n, s_fin (snd (read_data s n)) = s_fin s).
      { intros s n. unfold read_data. repeat (match goal with |- context [match ?x with _ => _ end] => destruct x end; cbn [snd s_fin s_chunks]); auto. }
      assert (Tr : forall fuel u s o f u' s', t_read fuel u s = TOk (o, f, u', s') -> s_fin s' = s_fin s).
      { induction fuel as [|fuel IH]; intros u s o f u' s'; cbn [t_read]; [discriminate|].
        pose proof (Rd s (Nat.min (iu_min_remaining u) 16)) as R. destruct (read_data s (Nat.min (iu_min_remaining u) 16)) as [[[b g]|] s1]; cbn [snd] in R; [|discriminate].
        destruct b as [|b0 b]; [intros H; injection H as _ _ _ <-; exact R|]. destruct (iu_consume u (dec_new (b0 :: b))) as [[[[v|] u1] d1]|]; [| |discriminate].
        - intros H; injection H as _ _ _ <-; exact R.
        - destruct g; [intros H; injection H as _ _ _ <-; exact R|]. intros H. rewrite (IH _ _ _ _ _ _ H). exact R. }
      intros h s r h' s' n. revert h s. induction n as [|n IH]; intros h s; cbn [get_type]; [intros H; injection H as _ _ <-; reflexivity|].
      destruct h as [u|t u|].
      - destruct (t_read (t_fuel s) u s) as [[[[[v|] f] u1] s1]| | |] eqn:E; try (intros H; injection H as _ _ <-; reflexivity).
        + apply Tr in E. destruct (final_type v uni server) as [o|e]; [|intros H; injection H as _ _ <-; exact E].
          destruct f; [intros H; injection H as _ _ <-; exact E|]. destruct o; [intros H; injection H as _ _ <-; exact E|]. intros H. rewrite (IH _ _ H). exact E.
        + apply Tr in E. destruct f; intros H; injection H as _ _ <-; exact E.
      - destruct (t_read (t_fuel s) u s) as [[[[[v|] f] u1] s1]| | |] eqn:E; try (intros H; injection H as _ _ <-; reflexivity).
        + apply Tr in E. intros H; injection H as _ _ <-; exact E.
        + apply Tr in E. destruct f; intros H; injection H as _ _ <-; exact E.
      - intros H; injection H as _ _ <-; reflexivity. }
    induction es0 as [|e es0 IH]; intros w0 w1; cbn [t_run].
    - intros H; injection H as <-. exists []. split; [destruct (s_fin (t_src w0)); reflexivity|auto].
    - destruct (t_step uni server w0 e) as [w2|] eqn:S; [|discriminate]. intros H. destruct (IH _ _ H) as (l & H1 & H2 & H3 & H4). unfold t_step in S.
      destruct (t_status w0) eqn:St.
      2,3: injection S as <-; rewrite St in H3; specialize (H3 ltac:(discriminate)); subst w1; eexists; split; [reflexivity|]; rewrite St; splits; auto; intros; discriminate.
      destruct e as [b| |].
      + destruct (s_fin (t_src w0)) eqn:F; injection S as <-.
        * rewrite F in *. exists l. splits; auto; intros; try congruence.
        * cbn [t_src t_all t_status s_fin] in *. cbn [arrivals]. exists l. rewrite app_assoc. splits; auto; intros; congruence.
      + destruct (s_fin (t_src w0)) eqn:F; injection S as <-.
        * rewrite F in *. exists l. splits; auto; intros; try congruence.
        * cbn [t_src t_all t_status s_fin] in *. cbn [arrivals]. exists l. splits; auto; intros; congruence.
      + destruct (get_type 2 uni server (t_head w0) (t_src w0)) as [[r h] s'] eqn:G. apply Gt in G. cbn [arrivals].
        destruct r as [[nt|]|e| |]; try discriminate; injection S as <-; cbn [t_src t_all t_status] in *; rewrite G in *; exists l; splits; auto; intros; congruence. }
  intros E. destruct (G es t_init w E) as (l & H1 & H2 & _ & _). cbn in H1. exists l. split; [exact H1|]. intros S. apply H2; auto.
Qed.
Print Assumptions stream_head_bytes.

(** A push stream whose head comes in three pieces; a request that begins with an unknown frame; a control stream that ends at once. *)
Example push_head : match t_run true false t_init [TArr [1]; TAsk; TArr [0x40]; TAsk; TArr [5; 9; 9]; TAsk] with
  | Some w => t_status w = TKnown (NPush 5) /\ concat (s_chunks (t_src w)) = [9; 9] | None => False end.
Proof. vm_compute. auto. Qed.
Example request_head : match t_run false true t_init [TArr [0x21; 0; 1]; TAsk] with
  | Some w => t_status w = TKnown (NHttp 0x21) /\ concat (s_chunks (t_src w)) = [0; 1] | None => False end.
Proof. vm_compute. auto. Qed.
Example control_ends : match t_run true true t_init [TArr [0]; TFin; TAsk] with Some w => t_status w = TFailed TClosedCritical | None => False end.
Proof. vm_compute. auto. Qed.
