(** The head of a stream, read in pieces. *)
From Verif Require Import Base Lib CodecModel Reader CodecSpec CodecProofs IncrProofs HfModel HfSpec HfProofs HtModel HtSpec.
Open Scope N_scope.
Open Scope list_scope.
Import ListNotations.

Lemma final_means t uni server : final_type t uni server = match means uni server t with Is nt => inl (Some nt) | WithId _ => inl None | Forbidden e => inr e end.
Proof.
  destruct t as [|p]; [destruct uni, server; reflexivity|]. destruct uni.
  - destruct server; do 8 (try (destruct p as [p|p|]; try reflexivity)).
  - destruct server; do 21 (try (destruct p as [p|p|]; try reflexivity)).
Qed.
Lemma id_means t uni server f : means uni server t = WithId f -> forall v, f v = if t =? PUSH_STREAM then NPush v else NWebTransport v.
Proof.
  unfold means. intros H v. repeat (let E := fresh in destruct t as [|t]; try discriminate; destruct uni, server; try discriminate;
    repeat (destruct t as [t|t|]; try discriminate; try (injection H as <-; reflexivity))).
Qed.

Lemma t_read_ok : forall fuel u s p, iu_rel p u -> bytes_ok p -> src_ok s -> s_over s = false -> (length (concat (s_chunks s)) < fuel)%nat ->
  match t_read fuel u s with
  | TOk (o, f, u', s') => src_ok s' /\ s_fin s' = s_fin s /\ f = s_over s' /\ (f = true -> concat (s_chunks s') = []) /\
      exists b, concat (s_chunks s) = b ++ concat (s_chunks s') /\
        match o with Some v => rd_varint (p ++ b) = Some (v, []) | None => iu_rel (p ++ b) u' /\ concat (s_chunks s') = [] /\ f = s_fin s end
  | _ => False
  end.
Proof.
  induction fuel as [|fuel IH]; intros u s p R Op K V L; [lia|]. cbn [t_read].
  pose proof (iu_rel_pos _ _ R) as Pos.
  pose proof (read_ok s (Nat.min (iu_min_remaining u) 16) K ltac:(lia) V) as Q.
  destruct (read_data s (Nat.min (iu_min_remaining u) 16)) as [[[b f]|] s']; [|contradiction].
  destruct Q as (K' & Ec & Lb & Ef & Eo & Hf & Hb & _).
  assert (Ob : bytes_ok b) by (destruct K as (_ & O & _); rewrite Ec in O; apply bytes_ok_app in O; tauto).
  destruct b as [|b0 b].
  { destruct (Hb eq_refl) as [H1 H2]. split; [exact K'|]. split; [exact Ef|]. split; [exact Eo|]. split; [auto|]. exists []. rewrite app_nil_r. split; [exact Ec|]. auto. }
  set (bb := b0 :: b) in *.
  assert (Wd : dec_wf (dec_new bb)) by apply dec_wf_new.
  assert (Rd : dec_remaining (dec_new bb) = length bb) by (unfold dec_remaining, dec_new; cbn; lia).
  destruct (iu_consume_rel p u (dec_new bb) R Wd Op Ob ltac:(rewrite Rd; unfold bb; cbn; lia)) as (k & o & u' & Hk & E & Ho).
  assert (Hkk : k = length bb).
  { pose proof (iu_consume_used _ _ _ _ _ E ltac:(rewrite Rd; lia) Wd) as U. rewrite <- dec_rest_length in U by (apply dec_advance_wf; [exact Wd|lia]).
    rewrite dec_advance_rest, dec_rest_new, skipn_length in U. lia. }
  subst k. rewrite dec_rest_new, firstn_all in Ho. rewrite E. change (match bb with [] => TOk (None, f, u, s') | _ :: _ => match o with
    | Some v => TOk (Some v, f, u', s') | None => if f then TOk (None, f, u', s') else t_read fuel u' s' end end) with
    (match o with Some v => TOk (Some v, f, u', s') | None => if f then TOk (None, f, u', s') else t_read fuel u' s' end).
  destruct o as [v|].
  { split; [exact K'|]. split; [exact Ef|]. split; [exact Eo|]. split; [intros ->; apply Hf; reflexivity|]. exists bb. split; [exact Ec|exact Ho]. }
  destruct f.
  { split; [exact K'|]. split; [exact Ef|]. split; [exact Eo|]. destruct (Hf eq_refl) as [_ H2]. split; [auto|]. exists bb. split; [exact Ec|]. destruct (Hf eq_refl) as [H3 _]. auto. }
  assert (L' : (length (concat (s_chunks s')) < fuel)%nat) by (apply (f_equal (@length N)) in Ec; rewrite app_length in Ec; unfold bb in Ec; cbn [length] in Ec; lia).
  specialize (IH u' s' (p ++ bb) Ho ltac:(apply bytes_ok_app; auto) K' ltac:(congruence) L').
  destruct (t_read fuel u' s') as [[[[o2 f2] u2] s2]| | |]; try contradiction.
  destruct IH as (A1 & A2 & A3 & A4 & b2 & A5 & A6).
  split; [exact A1|]. split; [congruence|]. split; [exact A3|]. split; [exact A4|]. exists (bb ++ b2). rewrite <- app_assoc, <- A5. split; [exact Ec|].
  rewrite app_assoc. rewrite <- Ef. exact A6.
Qed.

Section World.
  Variables uni server : bool.
  Definition head_rel (h : head) (all rest : list N) : Prop :=
    match h with
    | HType u => exists p, all = p ++ rest /\ iu_rel p u
    | HId t u => exists d p f, all = d ++ p ++ rest /\ (forall x, rd_varint (d ++ x) = Some (t, x)) /\ means uni server t = WithId f /\ iu_rel p u
    | HDone => False
    end.
  Definition outcome_ok (st : tstatus) (all : list N) (s : source) : Prop :=
    match st with
    | TReading => True
    | TKnown t => head_of uni server all = Yes t (concat (s_chunks s)) /\ (s_over s = true -> ends_as (head_of uni server all) = None)
    | TFailed e => head_of uni server all = No e \/ (s_over s = true /\ concat (s_chunks s) = [] /\ ends_as (head_of uni server all) = Some e)
    end.
  Definition tinv (w : tworld) : Prop :=
    src_ok (t_src w) /\ bytes_ok (t_all w) /\ (s_over (t_src w) = true -> s_fin (t_src w) = true) /\
    (t_status w = TReading -> s_over (t_src w) = false /\ head_rel (t_head w) (t_all w) (concat (s_chunks (t_src w))) /\
      (t_asked w = true -> concat (s_chunks (t_src w)) = [] /\ s_fin (t_src w) = false)) /\
    outcome_ok (t_status w) (t_all w) (t_src w).

  (** The identifier. *)
  Lemma get_id n t u s all : head_rel (HId t u) all (concat (s_chunks s)) -> bytes_ok all -> src_ok s -> s_over s = false ->
    let '(r, h, s') := get_type (S n) uni server (HId t u) s in
    src_ok s' /\ s_fin s' = s_fin s /\
    match r with
    | TOk None => s_over s' = false /\ head_rel h all (concat (s_chunks s')) /\ concat (s_chunks s') = [] /\ s_fin s' = false
    | TOk (Some nt) => outcome_ok (TKnown nt) all s'
    | TErr e => outcome_ok (TFailed e) all s'
    | _ => False
    end.
  Proof.
    intros (d & p & f & Ea & Hd & Hm & R) Oa K V. cbn [get_type].
    assert (Op : bytes_ok p) by (rewrite Ea in Oa; apply bytes_ok_app in Oa as [_ Oa]; apply bytes_ok_app in Oa; tauto).
    pose proof (t_read_ok (t_fuel s) u s p R Op K V ltac:(unfold t_fuel; lia)) as T.
    destruct (t_read (t_fuel s) u s) as [[[[o fin] u'] s']| | |]; try contradiction.
    destruct T as (K' & Ef & Eo & Hf & b & Ec & T). rewrite Ec in Ea.
    destruct o as [v|].
    - assert (Ev : head_of uni server all = Yes (f v) (concat (s_chunks s'))).
      { unfold head_of. rewrite Ea, Hd, Hm. rewrite (app_assoc p b). rewrite (rd_varint_extend _ _ _ T). reflexivity. }
      rewrite (id_means _ _ _ _ Hm) in Ev. destruct fin.
      + split; [exact K'|]. split; [exact Ef|]. cbn [outcome_ok]. right. split; [congruence|]. split; [auto|]. rewrite Ev, (Hf eq_refl). destruct (t =? PUSH_STREAM); reflexivity.
      + split; [exact K'|]. split; [exact Ef|]. cbn [outcome_ok]. split; [exact Ev|]. intros; congruence.
    - destruct T as (R' & Hn & Hfin). assert (Em : head_of uni server all = More).
      { unfold head_of. rewrite Ea, Hd, Hm, Hn, app_nil_r. rewrite (iu_rel_none _ _ R'). reflexivity. }
      destruct fin.
      + split; [exact K'|]. split; [exact Ef|]. cbn [outcome_ok]. right. split; [congruence|]. split; [exact Hn|]. rewrite Em. reflexivity.
      + split; [exact K'|]. split; [exact Ef|]. split; [congruence|]. split; [|split; [exact Hn|congruence]]. exists d, (p ++ b), f. rewrite <- (app_assoc p b). auto.
  Qed.
  Lemma get_ok h s all : head_rel h all (concat (s_chunks s)) -> bytes_ok all -> src_ok s -> s_over s = false ->
    let '(r, h', s') := get_type 2 uni server h s in
    src_ok s' /\ s_fin s' = s_fin s /\
    match r with
    | TOk None => s_over s' = false /\ head_rel h' all (concat (s_chunks s')) /\ concat (s_chunks s') = [] /\ s_fin s' = false
    | TOk (Some nt) => outcome_ok (TKnown nt) all s'
    | TErr e => outcome_ok (TFailed e) all s'
    | _ => False
    end.
  Proof.
    destruct h as [u|t u|]; [|apply get_id|intros []].
    intros (p & Ea & R) Oa K V.
    assert (Op : bytes_ok p) by (rewrite Ea in Oa; apply bytes_ok_app in Oa; tauto).
    pose proof (t_read_ok (t_fuel s) u s p R Op K V ltac:(unfold t_fuel; lia)) as T.
    change (get_type 2 uni server (HType u) s) with
      (match t_read (t_fuel s) u s with
          | TOk (None, fin, u', s') => if fin then (TErr TCreation, HDone, s') else (TOk None, HType u', s')
          | TOk (Some v, fin, _, s') =>
              match final_type v uni server with
              | inr e => (TErr e, HDone, s')
              | inl t =>
                  if fin then (stream_fin t, HDone, s')
                  else match t with Some t => (TOk (Some t), HDone, s') | None => get_type 1 uni server (HId v iu_default) s' end
              end
          | TErr e => (TErr e, HType u, s) | TTransport => (TTransport, HType u, s) | TPanic => (TPanic, HType u, s)
          end).
    destruct (t_read (t_fuel s) u s) as [[[[o fin] u'] s']| | |]; try contradiction.
    destruct T as (K' & Ef & Eo & Hf & b & Ec & T). rewrite Ec in Ea.
    destruct o as [v|].
    - assert (Hx : forall x, rd_varint ((p ++ b) ++ x) = Some (v, x)) by (intros x; apply rd_varint_extend; exact T).
      rewrite app_assoc in Ea. rewrite final_means. destruct (means uni server v) as [nt|f|e] eqn:M.
      + assert (Ev : head_of uni server all = Yes nt (concat (s_chunks s'))) by (unfold head_of; rewrite Ea, Hx, M; reflexivity).
        destruct fin.
        * assert (Hn : concat (s_chunks s') = []) by auto. 
          assert (Hid : match nt with NPush _ | NWebTransport _ => False | _ => True end).
          { clear -M. unfold means in M. destruct uni, server; destruct v as [|q]; try (injection M as <-; exact I); try discriminate;
              repeat (destruct q as [q|q|]; try discriminate; try (injection M as <-; exact I)). }
          destruct nt; cbn [stream_fin]; try contradiction; (split; [exact K'|]; split; [exact Ef|]); cbn [outcome_ok]; rewrite Ev, Hn; cbn [ends_as]; 
            try (right; split; [congruence|]; split; [reflexivity|reflexivity]); auto.
        * split; [exact K'|]. split; [exact Ef|]. cbn [outcome_ok]. split; [exact Ev|]. intros; congruence.
      + destruct fin.
        * split; [exact K'|]. split; [exact Ef|]. cbn [outcome_ok]. right. split; [congruence|]. split; [auto|].
          unfold head_of. rewrite Ea, Hx, M, (Hf eq_refl). reflexivity.
        * assert (Hr : head_rel (HId v iu_default) all (concat (s_chunks s'))) by (exists (p ++ b), [], f; splits; auto; reflexivity).
          pose proof (get_id 0 v iu_default s' all Hr Oa K' ltac:(congruence)) as G. 
          destruct (get_type 1 uni server (HId v iu_default) s') as [[r h'] s2]. destruct G as (G1 & G2 & G3). split; [exact G1|]. split; [congruence|exact G3].
      + split; [exact K'|]. split; [exact Ef|]. left. unfold head_of. rewrite Ea, Hx, M. reflexivity.
    - destruct T as (R' & Hn & Hfin). destruct fin.
      + split; [exact K'|]. split; [exact Ef|]. cbn [outcome_ok]. right. split; [congruence|]. split; [exact Hn|].
        unfold head_of. rewrite Ea, Hn, app_nil_r, (iu_rel_none _ _ R'). reflexivity.
      + split; [exact K'|]. split; [exact Ef|]. split; [congruence|]. split; [|split; [exact Hn|congruence]]. exists (p ++ b). rewrite <- app_assoc. auto.
  Qed.
  Lemma t_step_ok w e : (forall b, e = TArr b -> bytes_ok b) -> tinv w -> exists w', t_step uni server w e = Some w' /\ tinv w'.
  Proof.
    intros He (K & Oa & Hov & Hr & Ho). unfold t_step. destruct (t_status w) eqn:St; [|eexists; split; [reflexivity|]; unfold tinv; rewrite St; auto..].
    destruct (Hr eq_refl) as (V & R & Q). destruct e as [b| |].
    - destruct (s_fin (t_src w)) eqn:F; [exists w; split; [reflexivity|]; unfold tinv; rewrite St, F; auto 8|]. eexists; split; [reflexivity|].
      pose proof (He b eq_refl) as Ob. unfold tinv. cbn [t_src t_all t_status t_head t_asked s_chunks s_fin s_over].
      destruct K as (K1 & K2 & K3).
      assert (Ec : concat (s_chunks (t_src w) ++ (if is_nil b then [] else [b])) = concat (s_chunks (t_src w)) ++ b).
      { rewrite concat_app. destruct b; cbn; [reflexivity|]. rewrite app_nil_r. reflexivity. }
      split.
      { unfold src_ok. cbn [s_chunks s_fin s_over]. rewrite Ec. split; [apply Forall_app; split; [exact K1|destruct b; cbn; constructor; [discriminate|constructor]]|].
        split; [apply bytes_ok_app; auto|]. intros; congruence. }
      split; [apply bytes_ok_app; auto|]. split; [intros; congruence|]. split; [|exact I]. intros _. split; [exact V|]. rewrite Ec. split; [|discriminate].
      destruct (t_head w) as [u|t u|]; cbn [head_rel] in *.
      + destruct R as (p & -> & R). exists p. rewrite app_assoc. auto.
      + destruct R as (d & p & f & -> & R). exists d, p, f. rewrite !app_assoc. auto.
      + contradiction.
    - destruct (s_fin (t_src w)) eqn:F; [exists w; split; [reflexivity|]; unfold tinv; rewrite St, F; auto 8|]. eexists; split; [reflexivity|].
      unfold tinv. cbn [t_src t_all t_status t_head t_asked s_chunks s_fin s_over]. destruct K as (K1 & K2 & K3).
      split; [unfold src_ok; cbn [s_chunks s_fin s_over]; split; [exact K1|split; [exact K2|intros; congruence]]|]. split; [exact Oa|]. split; [reflexivity|]. split; [|exact I].
      intros _. split; [exact V|]. split; [exact R|discriminate].
    - pose proof (get_ok (t_head w) (t_src w) (t_all w) R Oa K V) as G. destruct (get_type 2 uni server (t_head w) (t_src w)) as [[r h] s'].
      destruct G as (G1 & G2 & G3). destruct r as [[nt|]|e| |]; try contradiction; eexists; (split; [reflexivity|]); unfold tinv; cbn [t_src t_all t_status t_head t_asked];
        (split; [exact G1|]; split; [exact Oa|]).
      + split; [apply G1|]. split; [discriminate|exact G3].
      + destruct G3 as (H1 & H2 & H3 & H4). split; [intros; congruence|]. split; [auto|exact I].
      + split; [apply G1|]. split; [discriminate|exact G3].
  Qed.
  Lemma t_run_ok es : forall w, Forall (fun e => forall b, e = TArr b -> bytes_ok b) es -> tinv w -> exists w', t_run uni server w es = Some w' /\ tinv w'.
  Proof.
    induction es as [|e es IH]; intros w F I; cbn [t_run]; [eauto|]. inversion F as [|? ? F1 F2]; subst.
    destruct (t_step_ok w e F1 I) as (w' & -> & I'). apply IH; auto.
  Qed.
  Lemma tinv_init : tinv t_init.
  Proof.
    unfold tinv, t_init. cbn. split; [unfold src_ok; cbn; split; [constructor|split; [constructor|discriminate]]|]. split; [constructor|]. split; [discriminate|].
    split; [|exact I]. intros _. split; [reflexivity|]. split; [|discriminate]. exists []. split; reflexivity.
  Qed.
  Lemma head_more h all : head_rel h all [] -> head_of uni server all = More.
  Proof.
    unfold head_of. destruct h as [u|t u|]; cbn [head_rel].
    - intros (p & -> & R). rewrite app_nil_r, (iu_rel_none _ _ R). reflexivity.
    - intros (d & p & f & -> & Hd & Hm & R). rewrite app_nil_r, Hd, Hm, (iu_rel_none _ _ R). reflexivity.
    - intros [].
  Qed.
End World.
