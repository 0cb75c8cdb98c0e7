(** C27: the amplification limit; C28: path validation; C74: the paths of a connection. *)
From Coq Require Import Permutation.
From Verif Require Import Base Lib PathModel.

(** ** Specification *)
Definition challenges_of (l : list pframe) : list N := flat_map (fun f => match f with PathChallenge d => [d] | _ => [] end) l.
(** The challenges sent in a history, in order. *)
Definition challenges (h : list (pop * pout)) : list N := flat_map (fun e => challenges_of (o_frames (snd e))) h.
Definition last_challenge (h : list (pop * pout)) (d : N) : Prop := exists l, challenges h = l ++ [d].
Fixpoint total (f : pop -> N) (ops : list pop) : N := match ops with [] => 0 | o :: l => f o + total f l end.
Definition received (o : pop) : N := match o with ORecv n => n | _ => 0 end.
Definition sent (o : pop) : N := match o with OSend n _ _ _ _ _ => n | _ => 0 end.
(** Datagrams that do not count: for a timeout, on entering recovery, to find the MTU, and those too small for more than acknowledgements. *)
Definition exempt (o : pop) : N :=
  match o with OSend n _ pto rec _ pm => if pto || rec || (match pm with Some _ => true | None => false end) || (n <? 256) then n else 0 | _ => 0 end.

(** ** One path *)
Lemma challenges_app : forall a b, challenges (a ++ b) = challenges a ++ challenges b.
Proof. intros. apply flat_map_app. Qed.
Lemma run_one : forall ops p p' h, p_run p ops = Some (p', h) -> match ops with [] => p' = p /\ h = [] | o :: r => exists p1 out h', p_step p o = Some (p1, out) /\ p_run p1 r = Some (p', h') /\ h = (o, out) :: h' end.
Proof. intros [|o r] p p' h H; cbn in H; [inv H; auto|]. destruct (p_step p o) as [[p1 out]|]; [|discriminate]. destruct (p_run p1 r) as [[p2 h']|] eqn:R; [|discriminate]. inv H. eauto 8. Qed.
Lemma probe_state : forall p, is_valid (probe p) = is_valid p /\ (forall c d m s, p_state (probe p) <> PProbing c d m s) /\ p_id (probe p) = p_id p /\ p_prim (probe p) = p_prim p /\ p_cid (probe p) = p_cid p.
Proof. intros p. unfold probe. destruct (_ <=? _); [destruct (p_mark p)|]; cbn; splits; auto; discriminate. Qed.

Definition vinv (p : path) (h : list (pop * pout)) : Prop :=
  (forall c d m s, p_state p = PProbing c d m s -> last_challenge h d) /\
  (is_valid p = true -> exists h1 d now out h2, h = h1 ++ (OResponse d now, out) :: h2 /\ last_challenge h1 d).
Lemma vinv_more : forall p h e, vinv p h -> challenges [e] = [] -> vinv p (h ++ [e]).
Proof.
  intros p h e [A B] E. split.
  - intros c d m s H. destruct (A c d m s H) as [l L]. exists l. rewrite challenges_app, E, app_nil_r. exact L.
  - intros H. destruct (B H) as (h1 & d & now & out & h2 & -> & L). exists h1, d, now, out, (h2 ++ [e]). rewrite <- app_assoc. auto.
Qed.
Lemma vinv_same : forall p q h, vinv p h -> p_state q = p_state p -> is_valid q = is_valid p -> vinv q h.
Proof. intros p q h [A B] E V. split; [intros c d m s H; rewrite E in H; eauto|rewrite V; exact B]. Qed.
Lemma vinv_probe : forall p h, vinv p h -> vinv (probe p) h.
Proof. intros p h [A B]. destruct (probe_state p) as (V & Np & _). split; [intros c d m s H; destruct (Np c d m s H)|rewrite V; exact B]. Qed.
Lemma p_challenge_cases : forall rand m now p, let '(p', l) := p_challenge rand m now p in
  (p' = p /\ l = []) \/ (exists c, p_state p = PNeed c /\ p' = with_state (PProbing c rand m now) p /\ l = [PathChallenge rand]).
Proof. intros rand m now p. unfold p_challenge. destruct (p_state p); eauto 6. Qed.
Lemma p_write_cases : forall room rand m now p, let '(p', l) := p_write room rand m now p in
  (challenges_of l = [] /\ p_state p' = p_state p /\ p_valid p' = p_valid p) \/
  (exists c, p_state p = PNeed c /\ p_state p' = PProbing c rand m now /\ p_valid p' = p_valid p /\ challenges_of l = [rand]).
Proof.
  intros room rand m now p. unfold p_write. destruct (_ <? _); [cbn; auto|]. destruct (p_chal p) as [d|].
  - destruct (_ <? _); [cbn; auto|]. pose proof (p_challenge_cases rand m now (challenged None p)) as H. destruct (p_challenge rand m now (challenged None p)) as [p2 l]. destruct H as [[-> ->]|(c & E & -> & ->)]; cbn in *; eauto 8.
  - pose proof (p_challenge_cases rand m now p) as H. destruct (p_challenge rand m now p) as [p2 l]. destruct H as [[-> ->]|(c & E & -> & ->)]; cbn; eauto 8.
Qed.
Lemma vinv_step : forall p o p' out h, p_step p o = Some (p', out) -> (forall now, o <> OSetValid now) -> vinv p h -> vinv p' (h ++ [(o, out)]).
Proof.
  intros p o p' out h H No J. destruct o as [d|d now| |room rand m now|now pto|now|now|b|m|b|n|n cwnd pto rec paced pm]; cbn [p_step] in H.
  - inv H. apply vinv_more; [|reflexivity]. eapply vinv_same; eauto.
  - inv H. unfold p_response. destruct (p_state p) as [|c|c data m s|] eqn:E; try (apply vinv_more; [exact J|reflexivity]). destruct (N.eqb_spec d data); [|apply vinv_more; [exact J|reflexivity]]. subst data.
    assert (L : last_challenge h d) by (eapply (proj1 J); eauto). assert (V : vinv (set_valid now p) (h ++ [(OResponse d now, quiet)])).
    { split; [intros ? ? ? ? X; discriminate|]. intros _. exists h, d, now, quiet, []. auto. }
    cbn [fst]. destruct m; [exact V|now apply vinv_probe].
  - inv H. apply vinv_more; [|reflexivity]. now apply vinv_probe.
  - pose proof (p_write_cases room rand m now p) as W. destruct (p_write room rand m now p) as [p2 l]. inv H. destruct W as [(E1 & E2 & E3)|(c & E1 & E2 & E3 & E4)].
    + apply vinv_more; [|unfold challenges; cbn [flat_map snd o_frames]; now rewrite E1]. eapply vinv_same; eauto. unfold is_valid. now rewrite E3.
    + destruct J as [A B]. split.
      * intros c' d m' s X. rewrite E2 in X. inv X. exists (challenges h). rewrite challenges_app. f_equal. unfold challenges. cbn [flat_map snd o_frames]. now rewrite E4.
      * unfold is_valid. rewrite E3. intros V. destruct (B V) as (h1 & d & n & out & h2 & -> & L). exists h1, d, n, out, (h2 ++ [(OWrite room rand m now, mkOut l false)]). rewrite <- app_assoc. auto.
  - destruct (p_timeout now pto p) as [p2 b] eqn:T. unfold p_timeout in T. inv T. inv H. apply vinv_more; [|reflexivity]. destruct (p_state p) as [|c|c d m s|] eqn:E; try exact J. destruct (_ <=? _); [now apply vinv_probe|exact J].
  - destruct (No now eq_refl).
  - inv H. apply vinv_more; [|reflexivity]. eapply vinv_same; eauto. unfold is_valid, update. cbn. now destruct (p_valid p).
  - inv H. apply vinv_more; [|reflexivity]. eapply vinv_same; eauto.
  - inv H. apply vinv_more; [|reflexivity]. eapply vinv_same; eauto.
  - inv H. apply vinv_more; [|reflexivity]. eapply vinv_same; eauto.
  - inv H. apply vinv_more; [|reflexivity]. eapply vinv_same; eauto.
  - destruct (_ <=? _); [|discriminate]. inv H. apply vinv_more; [|reflexivity]. eapply vinv_same; eauto.
Qed.
(** C28: a path that is not told to be valid (as in the handshake, or a forced migration) becomes valid only by a PATH_RESPONSE that
    carries the data of the last PATH_CHALLENGE sent on it. *)
Theorem validated_only_by_response : forall id mtu ops p h, p_run (p_new id mtu) ops = Some (p, h) -> (forall now, ~ In (OSetValid now) ops) -> is_valid p = true ->
  exists h1 d now out h2, h = h1 ++ (OResponse d now, out) :: h2 /\ last_challenge h1 d.
Proof.
  intros id mtu ops p h H No V. assert (G : forall ops p0 h0 p h, vinv p0 h0 -> (forall now, ~ In (OSetValid now) ops) -> p_run p0 ops = Some (p, h) -> vinv p (h0 ++ h)).
  { clear. induction ops as [|o ops IH]; intros p0 h0 p h J No H; apply run_one in H; [destruct H as [-> ->]; now rewrite app_nil_r|]. destruct H as (p1 & out & h' & S & R & ->).
    replace (h0 ++ (o, out) :: h') with ((h0 ++ [(o, out)]) ++ h') by (now rewrite <- app_assoc). eapply IH; eauto.
    - eapply vinv_step; eauto. intros now ->. apply (No now). now left.
    - intros now X. apply (No now). now right. }
  apply (G ops (p_new id mtu) [] p h) in H; auto; [apply H; exact V|]. split; [discriminate|discriminate].
Qed.
Print Assumptions validated_only_by_response.

(** What may happen while a response is awaited: anything but a new probe or the timeout of this one. *)
Definition waits (d sent : N) (o : pop) : Prop :=
  match o with OProbe | OSetValid _ => False | OTimeout now pto => now < sent + pto | OResponse x _ => x <> d | _ => True end.
(** C28: the right response validates the path. *)
Theorem response_validates : forall p room rand m t p1 out mid p2 h now,
  p_step p (OWrite room rand m t) = Some (p1, out) -> challenges_of (o_frames out) = [rand] ->
  p_run p1 mid = Some (p2, h) -> Forall (waits rand t) mid ->
  p_valid (fst (p_response rand now p2)) = Some now.
Proof.
  intros p room rand m t p1 out mid p2 h now S C R F. cbn in S. pose proof (p_write_cases room rand m t p) as W. destruct (p_write room rand m t p) as [q l]. inv S. cbn [o_frames] in C. destruct W as [(E & _)|(c & _ & E & _)]; [congruence|].
  assert (G : forall mid p1 p2 h c m, p_state p1 = PProbing c rand m t -> Forall (waits rand t) mid -> p_run p1 mid = Some (p2, h) -> exists c m, p_state p2 = PProbing c rand m t).
  { clear. induction mid as [|o mid IH]; intros p1 p2 h c m E F R; apply run_one in R; [destruct R as [-> _]; eauto|]. destruct R as (q & out & h' & S & R & ->). inv F.
    assert (X : p_state q = PProbing c rand m t).
    { destruct o as [d|d now| |room r m' now|now pto|now|now|b|mm|b|n|n cwnd pto rec paced pm]; cbn [p_step] in S; cbn [waits] in *; try (inv S; assumption); try contradiction.
      - inv S. unfold p_response. rewrite E. destruct (N.eqb_spec d rand); [congruence|exact E].
      - pose proof (p_write_cases room r m' now p1) as W. destruct (p_write room r m' now p1) as [q' l]. inv S. destruct W as [(_ & W & _)|(c' & W & _)]; congruence.
      - unfold p_timeout in S. rewrite E in S. destruct (N.leb_spec (t + pto) now); [lia|]. rewrite E in S. inv S. exact E.
      - destruct (_ <=? _); [|discriminate]. inv S. exact E. }
    eapply IH; eauto. }
  destruct (G _ _ _ _ _ _ E F R) as (c' & m' & E'). unfold p_response. rewrite E', N.eqb_refl. destruct m'; [reflexivity|]. cbn [fst]. unfold probe. cbn. destruct (p_mark p2); reflexivity.
Qed.
Print Assumptions response_validates.

(** ** How often it is probed *)
Definition budget (p : path) : N := (match p_state p with PNeed c => 3 - c | PProbing c _ _ _ => 2 - c | _ => 0 end) + (if p_mark p then 3 else 0).
Definition cinv (p : path) : Prop := match p_state p with PNeed c => c <= 2 | PProbing c _ _ _ => c <= 2 | PFailed => True | PValid => is_valid p = true end.
Definition passive (o : pop) : bool := match o with OProbe | OSetValid _ | OMark _ => false | _ => true end.
Lemma probe_budget : forall p c d m s, p_state p = PProbing c d m s -> cinv p -> is_valid p = false -> cinv (probe p) /\ budget (probe p) <= budget p.
Proof.
  intros p c d m s E J V. unfold cinv, budget in *. rewrite E in *. unfold probe. rewrite E. unfold MAX_PROBES. destruct (N.leb_spec 3 (c + 1)).
  - destruct (p_mark p) eqn:M; cbn; rewrite ?M; split; try lia; auto.
  - cbn. split; [lia|]. destruct (p_mark p); lia.
Qed.
Lemma budget_step : forall p o p' out, p_step p o = Some (p', out) -> passive o = true -> cinv p -> is_valid p' = false ->
  is_valid p = false /\ cinv p' /\ lenN (challenges_of (o_frames out)) + budget p' <= budget p.
Proof.
  intros p o p' out S P J V. destruct o as [d|d now| |room r m' now|now pto|now|now|b|mm|b|n|n cwnd pto rec paced pm]; cbn [p_step passive] in S, P; try discriminate;
    try (inv S; cbn [o_frames quiet]; change (lenN (challenges_of [])) with 0; splits; auto; unfold budget; cbn; lia).
  - inv S. cbn [o_frames quiet]. change (lenN (challenges_of [])) with 0. unfold p_response in *. destruct (p_state p) as [|c|c data m s|] eqn:E; cbn [fst] in *; try (splits; auto; lia). destruct (_ =? _); cbn [fst] in *; [|splits; auto; lia].
    destruct m; [discriminate|]. destruct (probe_state (set_valid now p)) as (X & _). rewrite X in V. discriminate.
  - pose proof (p_write_cases room r m' now p) as W. destruct (p_write room r m' now p) as [q l] eqn:Ew. inv S. cbn [o_frames].
    assert (Mk : p_mark p' = p_mark p). { unfold p_write, p_challenge in Ew. destruct (_ <? _); [now inv Ew|]. destruct (p_chal p); [destruct (_ <? _); [now inv Ew|]; cbn in Ew; destruct (p_state p); now inv Ew|destruct (p_state p); now inv Ew]. }
    destruct W as [(E1 & E2 & E3)|(c & E1 & E2 & E3 & E4)].
    + rewrite E1. change (lenN (@nil N)) with 0. unfold is_valid, cinv, budget in *. rewrite E2, E3, Mk in *. splits; auto; [destruct (p_state p); auto; unfold is_valid in *; now rewrite E3|lia].
    + rewrite E4. change (lenN [r]) with 1. unfold is_valid, cinv, budget in *. rewrite E1, E2, E3, Mk in *. splits; auto. destruct (p_mark p); lia.
  - unfold p_timeout in S. destruct (p_state p) as [|c|c d m s|] eqn:E; inv S; cbn [o_frames]; change (lenN (challenges_of [])) with 0; try (splits; auto; lia).
    destruct (_ <=? _); [|splits; auto; lia]. destruct (probe_state p) as (X & _). rewrite X in V. destruct (probe_budget p c d m s E J V). splits; auto.
  - inv S. cbn [o_frames quiet]. change (lenN (challenges_of [])) with 0. unfold is_valid, cinv, budget, update in *. cbn in *. destruct (p_valid p) eqn:Ev; [discriminate|]. splits; auto; [destruct (p_state p); auto; unfold is_valid in J; now rewrite Ev in J|lia].
  - destruct (_ <=? _); [|discriminate]. inv S. cbn [o_frames quiet]. change (lenN (challenges_of [])) with 0. splits; auto. unfold budget. cbn. lia.
Qed.
(** C28: a path that gets no response is sent at most three challenges, or six if its first ones were marked for ECN. *)
Theorem challenges_bounded : forall id mtu mark ops p h, p_run (with_mark mark (p_new id mtu)) ops = Some (p, h) -> forallb passive ops = true -> is_valid p = false ->
  lenN (challenges h) <= if mark then 6 else 3.
Proof.
  intros id mtu mark ops p h H P V. assert (G : forall ops p0 p h, cinv p0 -> p_run p0 ops = Some (p, h) -> forallb passive ops = true -> is_valid p = false -> is_valid p0 = false /\ lenN (challenges h) + budget p <= budget p0).
  { clear. induction ops as [|o ops IH]; intros p0 p h J H P V; apply run_one in H; [destruct H as [-> ->]; split; [exact V|change (lenN (challenges [])) with 0; lia]|]. destruct H as (p1 & out & h' & S & R & ->). cbn in P. apply andb_true_iff in P. destruct P as [P1 P2].
    assert (X : is_valid p1 = false).
    { clear IH S J P1. revert p1 p h' R V P2. induction ops as [|o' ops IH]; intros p1 p h' R V P2; apply run_one in R; [destruct R as [-> _]; exact V|]. destruct R as (q & out' & h2 & S & R & ->). cbn in P2. apply andb_true_iff in P2. destruct P2 as [P1 P2]. specialize (IH _ _ _ R V P2).
      destruct (is_valid p1) eqn:V1; [|reflexivity]. exfalso. clear R. destruct o' as [d|d now| |room r m' now|now pto|now|now|b|mm|b|n|n cwnd pto rec paced pm]; cbn [p_step passive] in S, P1; try discriminate; try (inv S; unfold is_valid in *; cbn in *; congruence).
      - inv S. unfold p_response in IH. destruct (p_state p1); cbn in IH; try congruence. destruct (_ =? _); cbn in IH; [|congruence]. destruct mtu; cbn in IH; [discriminate|]. destruct (probe_state (set_valid now p1)) as (X & _). rewrite X in IH. discriminate.
      - pose proof (p_write_cases room r m' now p1) as W. destruct (p_write room r m' now p1) as [q' l]. inv S. unfold is_valid in *. destruct W as [(_ & _ & W)|(c & _ & _ & W & _)]; rewrite W in IH; congruence.
      - unfold p_timeout in S. inv S. destruct (p_state p1); try congruence. destruct (_ <=? _); [|congruence]. destruct (probe_state p1) as (X & _). congruence.
      - inv S. unfold is_valid, update in *. cbn in *. destruct (p_valid p1); discriminate.
      - destruct (_ <=? _); [|discriminate]. inv S. unfold is_valid in *. cbn in *. congruence. }
    destruct (budget_step _ _ _ _ S P1 J X) as (V0 & J1 & B). split; [exact V0|]. destruct (IH _ _ _ J1 R P2 V) as [_ B2]. change (challenges ((o, out) :: h')) with (challenges_of (o_frames out) ++ challenges h'). rewrite lenN_app. lia. }
  destruct (G ops (with_mark mark (p_new id mtu)) p h) as [_ B]; auto; [unfold cinv; cbn; lia|]. unfold budget in B at 2. cbn in B. destruct mark; lia.
Qed.
Print Assumptions challenges_bounded.
(** One unanswered probe: sent at [t], given up at least a PTO later. *)
Definition round (r : N * N * bool * N * N * N) : list pop := let '(room, rand, m, t, pto, late) := r in [OWrite (18 + room) rand m t; OTimeout (t + pto + late) pto].
Lemma round_run : forall r p c, p_state p = PNeed c -> exists p' h b, p_run p (round r) = Some (p', h) /\ map (fun e : pop * pout => o_dead (snd e)) h = [false; b] /\
  p_mark p' = (if MAX_PROBES <=? c + 1 then false else p_mark p) /\
  p_state p' = (if MAX_PROBES <=? c + 1 then if p_mark p then PNeed 0 else PFailed else PNeed (c + 1)) /\ b = (if MAX_PROBES <=? c + 1 then negb (p_mark p) else false).
Proof.
  intros [[[[[room rand] m] t] pto] late] p c E. cbn [round p_run p_step].
  assert (W : exists l q, p_write (18 + room) rand m t p = (q, l) /\ p_state q = PProbing c rand m t /\ p_mark q = p_mark p).
  { unfold p_write, p_challenge. destruct (N.ltb_spec (18 + room) 9); [lia|]. destruct (p_chal p); [destruct (N.ltb_spec (18 + room - 9) 9); [lia|]; cbn; rewrite E; eauto|rewrite E; eauto 8]. }
  destruct W as (l & q & -> & E1 & E2). unfold p_timeout. rewrite E1. destruct (N.leb_spec (t + pto) (t + pto + late)); [|lia]. do 3 eexists. split; [reflexivity|]. cbn [map snd o_dead]. split; [reflexivity|].
  unfold probe. rewrite E1, E2. destruct (MAX_PROBES <=? c + 1); [destruct (p_mark p) eqn:M|]; cbn; rewrite ?E2; auto.
Qed.
Lemma run_app : forall a b p p1 h1 p2 h2, p_run p a = Some (p1, h1) -> p_run p1 b = Some (p2, h2) -> p_run p (a ++ b) = Some (p2, h1 ++ h2).
Proof. induction a as [|o a IH]; intros b p p1 h1 p2 h2 A B; apply run_one in A; [destruct A as [-> ->]; exact B|]. destruct A as (q & out & h' & S & R & ->). cbn [p_run app]. rewrite S. now rewrite (IH _ _ _ _ _ _ R B). Qed.
Lemma rounds_three : forall r1 r2 r3 p, p_state p = PNeed 0 -> exists p' h, p_run p (round r1 ++ round r2 ++ round r3) = Some (p', h) /\ p_mark p' = false /\ p_state p' = (if p_mark p then PNeed 0 else PFailed) /\
  map (fun e : pop * pout => o_dead (snd e)) h = [false; false; false; false; false; negb (p_mark p)].
Proof.
  intros r1 r2 r3 p E. destruct (round_run r1 p 0 E) as (p1 & h1 & b1 & R1 & D1 & M1 & S1 & B1). cbn in M1, S1, B1. destruct (round_run r2 p1 1 S1) as (p2 & h2 & b2 & R2 & D2 & M2 & S2 & B2). cbn in M2, S2, B2.
  destruct (round_run r3 p2 2 S2) as (p3 & h3 & b3 & R3 & D3 & M3 & S3 & B3). cbn in M3, S3, B3. do 2 eexists. split; [eapply run_app; [exact R1|eapply run_app; [exact R2|exact R3]]|]. rewrite M3, S3, !map_app, D1, D2, D3, B1, B2, B3, M2, M1. auto.
Qed.
(** C28: a path that never gets a response is given up at the third timeout; at the sixth if it was marked for ECN, the last three probes then being
    without marks. *)
Theorem unanswered_is_abandoned : forall (id mtu : N) (mark : bool) (rs : list (N * N * bool * N * N * N)), length rs = (if mark then 6 else 3)%nat ->
  exists p h l, p_run (with_mark mark (p_new id mtu)) (flat_map round rs) = Some (p, h) /\ p_state p = PFailed /\ p_mark p = false /\
    map (fun e : pop * pout => o_dead (snd e)) h = l ++ [true] /\ Forall (fun b => b = false) l.
Proof.
  intros id mtu mark rs L. destruct mark.
  - do 6 (destruct rs as [|? rs]; [discriminate|]). destruct rs; [|discriminate]. cbn [flat_map]. rewrite app_nil_r.
    destruct (rounds_three p p0 p1 (with_mark true (p_new id mtu)) eq_refl) as (q & h & R & M & S & D). cbn [p_mark with_mark] in S, D. destruct (rounds_three p2 p3 p4 q S) as (q' & h' & R' & M' & S' & D'). rewrite M in S', D'.
    exists q', (h ++ h'), [false; false; false; false; false; false; false; false; false; false; false]. replace (round p ++ round p0 ++ round p1 ++ round p2 ++ round p3 ++ round p4) with ((round p ++ round p0 ++ round p1) ++ round p2 ++ round p3 ++ round p4) by (now rewrite <- !app_assoc).
    split; [eapply run_app; eauto|]. rewrite map_app, D, D'. splits; auto. repeat constructor.
  - do 3 (destruct rs as [|? rs]; [discriminate|]). destruct rs; [|discriminate]. cbn [flat_map]. rewrite app_nil_r.
    destruct (rounds_three p p0 p1 (with_mark false (p_new id mtu)) eq_refl) as (q & h & R & M & S & D). cbn [p_mark with_mark] in S, D. exists q, h, [false; false; false; false; false]. splits; auto. repeat constructor.
Qed.
Print Assumptions unanswered_is_abandoned.

(** ** Amplification *)
Lemma amp_step : forall M p o p' out r s e, p_step p o = Some (p', out) -> (forall now, o <> OSetValid now) -> (forall m, o = OMtu m -> m <= M) -> p_mtu p <= M ->
  is_valid p' = false ->
  p_recv p = r -> p_sent p = s -> 3 * (r + received o) <= USIZE_MAX -> s + sent o <= USIZE_MAX ->
  forall B, s <= N.max (3 * r) B + e -> (r = 0 -> 5 * M <= B) ->
  is_valid p = false /\ p_recv p' = r + received o /\ p_sent p' = s + sent o /\ p_mtu p' <= M /\ s + sent o <= N.max (3 * (r + received o)) B + (e + exempt o).
Proof.
  intros M p o p' out r s e S No Om Mm V Er Es L1 L2 B I Bm. destruct o as [d|d now| |room rd m' now|now pto|now|now|b|mm|b|n|n cwnd pto rec paced pm]; cbn [p_step received sent exempt] in *; rewrite ?N.add_0_r in *;
    try (inv S; splits; auto; lia).
  - inv S. unfold p_response in *. destruct (p_state p) as [|c|c data m s|] eqn:E; cbn [fst] in *; try (splits; auto; lia). destruct (_ =? _); cbn [fst] in *; [|splits; auto; lia].
    destruct m; [discriminate|]. destruct (probe_state (set_valid now p)) as (X & _). rewrite X in V. discriminate.
  - inv S. destruct (probe_state p) as (X & _). rewrite X in V. unfold probe in *. destruct (_ <=? _); [destruct (p_mark p)|]; cbn in *; splits; auto; lia.
  - pose proof (p_write_cases room rd m' now p) as W. destruct (p_write room rd m' now p) as [q l] eqn:Ew. inv S.
    assert (Mk : p_recv p' = p_recv p /\ p_sent p' = p_sent p /\ p_mtu p' = p_mtu p). { unfold p_write, p_challenge in Ew. destruct (_ <? _); [now inv Ew|]. destruct (p_chal p); [destruct (_ <? _); [now inv Ew|]; cbn in Ew; destruct (p_state p); now inv Ew|destruct (p_state p); now inv Ew]. }
    destruct Mk as (K1 & K2 & K3). unfold is_valid in *. destruct W as [(_ & _ & W)|(c & _ & _ & W & _)]; rewrite W in V; splits; auto; lia.
  - unfold p_timeout in S. inv S. destruct (p_state p); try (splits; auto; lia). destruct (_ <=? _); [|splits; auto; lia]. destruct (probe_state p) as (X & _). rewrite X in V. unfold probe in *. destruct (_ <=? _); [destruct (p_mark p)|]; cbn in *; splits; auto; lia.
  - destruct (No now eq_refl).
  - inv S. unfold is_valid, update in *. cbn in *. destruct (p_valid p); [discriminate|]. splits; auto; lia.
  - inv S. unfold is_valid in *. cbn in *. splits; auto; try lia.
  - destruct (N.leb_spec n (dgram_limit p cwnd pto rec paced pm)) as [Ln|]; [|discriminate]. inv S. unfold is_valid in *. cbn [p_valid p_recv p_sent p_mtu add_sent] in *. splits; auto; [lia|].
    destruct pm as [sz|]; [rewrite orb_true_r; cbn [orb]; lia|]. unfold dgram_limit in Ln. destruct pto; [cbn [orb]; lia|]. destruct rec; [cbn [orb]; lia|]. cbn [orb]. destruct (N.ltb_spec n 256); [lia|].
    unfold amp_limit, ACK_ROOM, is_valid in Ln. destruct (p_valid p); [discriminate|]. destruct (N.ltb_spec USIZE_MAX (p_recv p * 3)); [lia|].
    set (A := match p_state p with PFailed => 0 | _ => _ end) in Ln. assert (HA : A + p_sent p <= N.max (3 * p_recv p) B + e \/ A = 0).
    { unfold A. destruct (p_state p); try (right; reflexivity); destruct (N.eqb_spec (p_recv p * 3) 0); try (assert (p_mtu p * 5 <= B) by (specialize (Bm ltac:(lia)); lia)); lia. }
    clearbody A. destruct (N.ltb_spec (p_mtu p) (N.min cwnd A)); [destruct paced; lia|]. lia.
Qed.
Lemma amp_run : forall M B ops p p' h e r s, p_run p ops = Some (p', h) -> (forall now, ~ In (OSetValid now) ops) -> (forall m, In (OMtu m) ops -> m <= M) -> p_mtu p <= M -> is_valid p' = false ->
  p_recv p = r -> p_sent p = s -> 3 * (r + total received ops) <= USIZE_MAX -> s + total sent ops <= USIZE_MAX -> s <= N.max (3 * r) B + e -> (r = 0 -> 5 * M <= B) ->
  s + total sent ops <= N.max (3 * (r + total received ops)) B + (e + total exempt ops).
Proof.
  intros M B. induction ops as [|o ops IH]; intros p p' h e r s R No Om Mm V Er Es L1 L2 I Bm; apply run_one in R; cbn [total] in *; [rewrite !N.add_0_r; exact I|]. destruct R as (q & out & h' & S & R & ->).
  assert (Vq : is_valid q = false).
  { destruct (is_valid q) eqn:Vq; [|reflexivity]. exfalso. assert (K : forall ops p p' h, p_run p ops = Some (p', h) -> is_valid p = true -> is_valid p' = true); [|rewrite (K _ _ _ _ R Vq) in V; discriminate]. clear. induction ops as [|o ops IH]; intros p p' h R V; apply run_one in R; [now destruct R as [-> _]|]. destruct R as (q & out & h' & S & R & ->). eapply IH; eauto. clear R IH.
    destruct o as [d|d now| |room rd m' now|now pto|now|now|b|mm|b|n|n cwnd pto rec paced pm]; cbn [p_step] in S; try (inv S; exact V); try (inv S; reflexivity).
    - inv S. unfold p_response. destruct (p_state p); try exact V. destruct (_ =? _); [|exact V]. cbn. destruct mtu; [reflexivity|]. destruct (probe_state (set_valid now p)) as (X & _). now rewrite X.
    - inv S. destruct (probe_state p) as (X & _). now rewrite X.
    - pose proof (p_write_cases room rd m' now p) as W. destruct (p_write room rd m' now p) as [q' l]. inv S. unfold is_valid in *. destruct W as [(_ & _ & W)|(c & _ & _ & W & _)]; now rewrite W.
    - unfold p_timeout in S. inv S. destruct (p_state p); try exact V. destruct (_ <=? _); [|exact V]. destruct (probe_state p) as (X & _). now rewrite X.
    - inv S. unfold is_valid, update in *. cbn. now destruct (p_valid p).
    - destruct (_ <=? _); [|discriminate]. inv S. exact V. }
  destruct (amp_step M p o q out r s e S) with (B := B) as (V0 & E1 & E2 & E3 & E4); auto; try lia.
  { intros now ->. apply (No now). now left. } { intros m ->. apply Om. now left. }
  specialize (IH q p' h' (e + exempt o) (r + received o) (s + sent o) R). rewrite !N.add_assoc in L1, L2. cut (s + sent o + total sent ops <= N.max (3 * (r + received o + total received ops)) B + (e + exempt o + total exempt ops)); [rewrite !N.add_assoc; auto|]. apply IH; auto; try lia.
  - intros now X. apply (No now). now right.
  - intros m X. apply Om. now right.
Qed.
(** C27, in part: on a path where the peer spoke first, as long as it is not validated, the datagrams sent come to at most three times the bytes received,
    leaving aside those for a timeout, on entering recovery, for finding the MTU, and those of less than 256 bytes (missing: these are not limited). *)
Theorem amplification_partial : forall id mtu n ops p h, 0 < n -> p_run (p_new id mtu) (ORecv n :: ops) = Some (p, h) -> (forall now, ~ In (OSetValid now) ops) -> is_valid p = false ->
  3 * total received (ORecv n :: ops) <= USIZE_MAX -> total sent ops <= USIZE_MAX ->
  total sent ops <= 3 * total received (ORecv n :: ops) + total exempt ops.
Proof.
  intros id mtu n ops p h Pn R No V L1 L2. apply run_one in R. destruct R as (q & out & h' & S & R & ->). cbn [p_step] in S. inv S. cbn [total received] in *.
  set (M := fold_right (fun o m => match o with OMtu x => N.max x m | _ => m end) mtu ops). assert (HM : (forall m, In (OMtu m) ops -> m <= M) /\ mtu <= M).
  { unfold M. clear. induction ops as [|o ops [IH1 IH2]]; cbn; [split; [intros ? []|lia]|]. split.
    - intros m [->|X]; [lia|]. specialize (IH1 m X). destruct o; lia.
    - destruct o; lia. }
  clearbody M. assert (Er : p_recv (add_received n (p_new id mtu)) = n) by (cbn; unfold USIZE_MAX in *; lia).
  pose proof (amp_run M 0 ops _ p h' 0 n 0 R No (proj1 HM) (proj2 HM) V Er eq_refl) as X. rewrite !N.add_0_l in X. specialize (X L1 L2 ltac:(lia) ltac:(lia)). lia.
Qed.
Print Assumptions amplification_partial.
(** C27, in part: on a path this endpoint opens, the allowance before anything comes back is five full datagrams. *)
Theorem own_path_partial : forall id mtu M ops p h, mtu <= M -> (forall m, In (OMtu m) ops -> m <= M) -> p_run (p_new id mtu) ops = Some (p, h) -> (forall now, ~ In (OSetValid now) ops) -> is_valid p = false ->
  3 * total received ops <= USIZE_MAX -> total sent ops <= USIZE_MAX ->
  total sent ops <= N.max (3 * total received ops) (5 * M) + total exempt ops.
Proof.
  intros id mtu M ops p h Lm Om R No V L1 L2. pose proof (amp_run M (5 * M) ops _ p h 0 0 0 R No Om Lm V eq_refl eq_refl) as X. rewrite !N.add_0_l in X. apply X; auto; lia.
Qed.
Print Assumptions own_path_partial.
(** C27 does not hold as it stands: after a datagram of 400 bytes, one of 1252 is sent to look for a larger MTU; after 50 bytes, an acknowledgement of 200;
    and on a timeout full datagrams, whatever was received. *)
Theorem amplification_refuted :
  (exists p h, p_run (p_new 1 1252) [ORecv 400; OSend 1352 20000 false false false (Some 1352)] = Some (p, h) /\ is_valid p = false /\ 3 * p_recv p < p_sent p) /\
  (exists p h, p_run (p_new 1 1252) [ORecv 50; OSend 200 20000 false false false None] = Some (p, h) /\ is_valid p = false /\ 3 * p_recv p < p_sent p) /\
  (exists p h, p_run (p_new 1 1252) [ORecv 400; OSend 1252 20000 true false false None] = Some (p, h) /\ is_valid p = false /\ 3 * p_recv p < p_sent p).
Proof. repeat split; do 2 eexists; (split; [reflexivity|split; reflexivity]). Qed.
Print Assumptions amplification_refuted.
(** Three full datagrams go out after one was received, and not one byte of a fourth. *)
Example amplification_story : let sends := [OSend 1200 20000 false false false None; OSend 1200 20000 false false false None; OSend 1200 20000 false false false None] in
  match p_run (p_new 1 1200) (ORecv 1200 :: sends) with Some (p, _) => p_sent p = 3600 /\ amp_limit p = 0 /\ p_step p (OSend 256 20000 false false false None) = None | None => False end.
Proof. vm_compute. auto. Qed.
(** A path is challenged, answers and is valid; another answer does nothing. *)
Example validation_story : match p_run (p_new 1 1200) [OWrite 100 77 true 5; OResponse 78 6] with
  | Some (p, h) => is_valid p = false /\ challenges h = [77] /\ is_valid (fst (p_response 77 7 p)) = true | None => False end.
Proof. vm_compute. auto. Qed.
