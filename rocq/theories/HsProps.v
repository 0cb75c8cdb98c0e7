From Coq Require Import String.
From Verif Require Import Base Lib CodecModel CodecSpec Reader HfModel HfSpec HfProofs HfProofs2 HhModel HmModel HmSpec HmProofs HmProofs2 HmProofs3 HsModel HsSpec HsProofs.
Open Scope N_scope.
Open Scope list_scope.
Import ListNotations.

(** C94 (1): whatever an application does with a message, no assertion fails and the transport is given no more than it offers. What has
    been written, with what is buffered, spells the headers and the bytes of the body that were accepted, in order, in whole frames; when the
    stream is finished, nothing is left in the buffer and the application had closed it. *)
Theorem message_written : forall mt os, sane_run mt s_start os -> exists s v, s_run mt s_start os = Some (s, v) /\
  lenN (n_sent s) + n_avail s = v_room v /\ bytes_ok (n_sent s ++ n_buf s) /\
  (n_closed s = true -> v_closed v = true /\ n_buf s = []) /\
  (v_closed v = true -> after_final mt (map fst (v_heads v)) <> None) /\
  forall prio D push, readable D (v_heads v) ->
    message (h3 prio read_settings) D mt push InHead 0 (n_sent s ++ n_buf s) (told mt (map fst (v_heads v))) (v_body v)
      (Between (match after_final mt (map fst (v_heads v)) with None => false | Some _ => true end)).
Proof.
  intros mt os Sn. destruct (sinv_run (fun _ => None) (fun _ _ => SBad) mt false os s_start (sinv_start _ _ _ _) Sn) as ([s v] & E & V).
  exists s, v. split; [exact E|]. destruct V as [I1 I2 I4 I5 I6 _]. cbn [fst snd] in *. splits; auto.
  - intros C. apply I1 in C as [C1 C2]. split; [apply I2; exact C1|exact C2].
  - intros C. apply I2 in C. rewrite C in I6. destruct I6 as [-> | ->]; discriminate.
  - intros prio D push R. destruct (sinv_run prio D mt push os s_start (sinv_start _ _ _ _) Sn) as (p & E' & V). rewrite E in E'. injection E' as <-. destruct V as [_ _ _ _ _ I7]. cbn [fst snd] in *.
    destruct (I7 R) as (pl & P & C). pose proof (carry_now prio D mt push _ _ _ _ _ _ [] [] (Between (may_end pl)) C) as Q. rewrite !app_nil_r in Q.
    assert (F : framed pl) by (destruct (n_st s); cbn [place_st] in P; try subst pl; try exact I; destruct P; subst pl; exact I).
    replace (match after_final mt (map fst (v_heads v)) with None => false | Some _ => true end) with (may_end pl).
    + apply Q. apply g_nothing; [exact F|constructor].
    + destruct (n_st s); cbn [place_st phase] in *; [subst pl; rewrite I6; reflexivity|subst pl; rewrite I6; reflexivity|subst pl; rewrite I6; reflexivity|].
      destruct P; subst pl; destruct I6 as [-> | ->]; reflexivity.
Qed.
Print Assumptions message_written.

(** C94 (2): data is not refused for nothing: in the body, with nothing in the buffer and room for three bytes, at least one byte is
    taken, and the frame fits the room. *)
Theorem data_is_taken : forall mt os s v b, sane_run mt s_start os -> s_run mt s_start os = Some (s, v) ->
  after_final mt (map fst (v_heads v)) = Some 0%nat -> v_closed v = false -> n_buf s = [] -> 3 <= n_avail s -> b <> [] -> lenN b < 2 ^ 62 ->
  exists s' n, send_data s b = (s', ROk n) /\ 0 < n <= lenN b /\ n_buf s' = [] /\ lenN (n_sent s') <= lenN (n_sent s) + n_avail s.
Proof.
  intros mt os s v b Sn E Af Nc Eb La Nb Lb. destruct (sinv_run (fun _ => None) (fun _ _ => SBad) mt false os s_start (sinv_start _ _ _ _) Sn) as (p & E' & V). rewrite E in E'. injection E' as <-.
  destruct V as [I1 I2 _ _ I6 _]. cbn [fst snd] in *. assert (Est : n_st s = WData). { destruct (n_st s) eqn:Est; cbn [phase] in I6; try congruence. exfalso. assert (v_closed v = true) by (apply I2; reflexivity). congruence. }
  assert (C1 : n_closed s = false). { destruct (n_closed s); [|reflexivity]. destruct (I1 eq_refl). congruence. }
  unfold send_data. rewrite Est. unfold send_buffer. rewrite Eb. cbn [is_nil]. rewrite Eb. cbn [is_nil negb]. unfold MIN_DATA_FRAME_SIZE. destruct (N.ltb_spec (n_avail s) 3); [lia|].
  assert (Lp : 0 < lenN b) by (destruct b; [congruence|unfold lenN; cbn [length]; lia]).
  set (n := to_send (lenN b) (n_avail s)). assert (Ln : n <= lenN b) by apply to_send_len. assert (0 < n) by (apply to_send_pos; auto). destruct (data_some n ltac:(lia)) as (w & Ew). rewrite Ew.
  pose proof (to_send_ok (lenN b) (n_avail s) w La Lb Ew) as Fit. fold n in Fit. destruct (data_header n w Ew) as (_ & Nw & _).
  rewrite (atomic_ok s w Eb C1 Nw ltac:(lia)). assert (Ld : lenN (firstn (N.to_nat n) b) = n) by (unfold lenN in *; rewrite firstn_length; lia).
  rewrite atomic_ok; cbn [n_buf n_closed n_avail n_st n_sent]; auto; [| |lia].
  - eexists. exists n. split; [reflexivity|]. cbn [n_buf n_sent]. rewrite !lenN_app. splits; auto. lia.
  - intros Z. rewrite Z in Ld. cbn in Ld. lia.
Qed.
Print Assumptions data_is_taken.

(** C94 (3): once closed, one round with room for what is buffered finishes the stream. *)
Theorem close_finishes : forall mt os s v, sane_run mt s_start os -> s_run mt s_start os = Some (s, v) -> v_closed v = true -> lenN (n_buf s) <= n_avail s ->
  exists s', n_send s = ROk s' /\ n_closed s' = true /\ n_sent s' = n_sent s ++ n_buf s.
Proof.
  intros mt os s v Sn E Vc Lb. destruct (sinv_run (fun _ => None) (fun _ _ => SBad) mt false os s_start (sinv_start _ _ _ _) Sn) as (p & E' & V). rewrite E in E'. injection E' as <-.
  destruct V as [I1 I2 _ _ I6 _]. cbn [fst snd] in *. apply I2 in Vc. unfold n_send.
  destruct (buffer_ok s) as (s1 & E0 & E1 & E2 & E3 & E4 & E5 & E6). { intros C. apply I1 in C. tauto. }
  rewrite E0. assert (Eb : n_buf s1 = []).
  { destruct E5 as [E5|E5]; [exact E5|]. apply (f_equal lenN) in E1. rewrite !lenN_app in E1. destruct (n_buf s1); [reflexivity|]. unfold lenN in *. cbn [length] in *. lia. }
  rewrite Eb. cbn [is_nil]. rewrite E2, Vc. eexists. split; [reflexivity|]. cbn [t_close n_closed n_sent]. split; [reflexivity|]. rewrite Eb, app_nil_r in E1. exact E1.
Qed.
Print Assumptions close_finishes.

(** C94 (4): both ends together: a receiver that gets these bytes, however cut, and the end only after all of them, never reports an error;
    what it has given to its application is a beginning of what was handed over at the other end, and when it tells the end it is all of it. *)
Theorem message_delivered : forall prio D mt push os s v xs w x, sane_run mt s_start os -> s_run mt s_start os = Some (s, v) -> n_closed s = true -> readable D (v_heads v) ->
  Forall act_ok xs -> w_run prio D mt push (w_init None) xs = Some w -> w_all w ++ x = n_sent s -> (s_fin (m_src (w_msg w)) = true -> x = []) ->
  (forall e, w_status w = Broken e -> push = true /\ (e = EPush \/ e = EQpack)) /\
  (w_status w = Running -> w_ends w = 0%nat /\ exists hs body, told mt (map fst (v_heads v)) = w_heads w ++ hs /\ v_body v = w_body w ++ body) /\
  (w_status w = Ending -> w_ends w = 1%nat /\ w_heads w = told mt (map fst (v_heads v)) /\ w_body w = v_body v).
Proof.
  intros prio D mt push os s v xs w x Sn E Cl R Ok Rw Ex Fx. destruct (message_written mt os Sn) as (s0 & v0 & E0 & _ & _ & Hc & Hv & Hm). rewrite E in E0. injection E0 as <- <-.
  destruct (Hc Cl) as [Vc Eb]. specialize (Hm prio D push R). rewrite Eb, app_nil_r in Hm. specialize (Hv Vc). destruct (after_final mt (map fst (v_heads v))); [|congruence]. clear Hc Hv.
  pose proof (winv_run prio D mt push xs (w_init None) (winv_init _ _ _ _ None I) Ok) as V. rewrite Rw in V. splits.
  - intros e Es. unfold winv in V. rewrite Es in V. destruct V as [V _]. destruct V as [V|(hs & b & [V|(F & V)])]; [exact V| |]; exfalso.
    + specialize (V x). rewrite Ex in V. destruct (message_det _ _ _ _ _ _ _ _ _ _ V _ _ _ Hm) as (_ & _ & Z). discriminate.
    + rewrite (Fx F), app_nil_r in Ex. rewrite Ex in V. destruct V as [(_ & V)|(_ & V)]; destruct (message_det _ _ _ _ _ _ _ _ _ _ V _ _ _ Hm) as (_ & _ & Z); discriminate.
  - intros Es. split; [eapply running_ends; eauto|]. unfold winv in V. rewrite Es in V. destruct V as [A N]. rewrite <- Ex in Hm.
    destruct (m_state (w_msg w)) eqn:Em; try (eapply at_prefix; [exact A| | |exact Hm]; congruence).
    destruct A as (S & _ & A). rewrite Em in A. destruct A as (_ & O & Dn). destruct S as (_ & _ & S). destruct (S O) as [Fi _]. rewrite (Fx Fi), app_nil_r in Hm.
    destruct (message_det _ _ _ _ _ _ _ _ _ _ Hm _ _ _ Dn) as (-> & -> & _). exists [], []. rewrite !app_nil_r. auto.
  - intros Es. unfold winv in V. rewrite Es in V. destruct V as [(_ & _ & A) N]. rewrite N in A. destruct A as [F A]. rewrite (Fx F), app_nil_r in Ex. rewrite Ex in A. destruct A as [[Z M]|[Z M]].
    + destruct (message_det _ _ _ _ _ _ _ _ _ _ M _ _ _ Hm) as (-> & -> & _). auto.
    + exfalso. specialize (M []). rewrite app_nil_r in M. destruct (message_det _ _ _ _ _ _ _ _ _ _ M _ _ _ Hm) as (_ & _ & Z'). discriminate.
Qed.
Print Assumptions message_delivered.
(** An interim response, a response, a body in two frames as room comes, trailers. *)
Definition ex_ops : list sop :=
  [Headers [(str ":status", str "103")] [103]; Headers [(str ":status", str "200")] [200]; Data [1; 2; 3]; Room 5; Flush; Data [1; 2; 3]; Room 5; Data [1; 2; 3]; Room 6; Data [3]; Headers [(str "a", str "b")] [9]; Close; Room 1; Flush; Room 5; Flush].
Definition ex_D (_ : nat) (b : list N) : section := match b with [103] => SGood false (Some [(str ":status", str "103")]) | [200] => SGood false (Some [(str ":status", str "200")]) | [9] => SGood false (Some [(str "a", str "b")]) | _ => SBad end.
Example message_written_case : sane_run Response s_start ex_ops /\
  match s_run Response s_start ex_ops with
  | Some (s, v) => n_closed s = true /\ v_body v = [1; 2; 3] /\ n_sent s = [1; 1; 103; 1; 1; 200; 0; 2; 1; 2; 0; 1; 3; 1; 1; 9] /\ readable ex_D (v_heads v) /\ told Response (map fst (v_heads v)) = [([(str ":status", str "103")], true); ([(str ":status", str "200")], false)]
  | None => False
  end.
Proof.
  split.
  - unfold ex_ops. cbn [sane_run]. repeat (split; [cbn [sane]; splits; try discriminate; try (repeat constructor; fail); try (vm_compute; reflexivity || (intros; discriminate)); try (intros _; do 2 eexists; vm_compute; reflexivity); auto|]; match goal with |- context [s_step ?a ?b ?c] => let r := eval vm_compute in (s_step a b c) in replace (s_step a b c) with r by (vm_compute; reflexivity) end; cbv beta iota). exact I.
  - vm_compute. splits; auto. intros [|[|[|k]]] hs b E; injection E as <- <- || (destruct k; discriminate); eexists; reflexivity.
Qed.
