(** The server's handling of datagrams and connections (C105). *)
From Coq Require Import NArith List Bool Lia.
From Verif Require Import Base Lib CodecModel Reader CodecProofs VerModel PktModel PktSpec PktProps AddrModel AddrProps SvModel SvSpec.
Import ListNotations.
Open Scope N_scope.

Section Server.
Variable C : Type.
Variable c_valid : C -> list N -> bool.
Variable c_input : C -> dgram -> N -> C.
Variable c_output : C -> N -> C * cout.
Variable c_first : C -> dgram -> N -> C * option dgram.
Variable c_closed : C -> bool.
Variable c_new : details -> option (list N) -> N -> option C.
Variable rexp : version -> nat.
Variable rseal : list N -> list N.
Variable cid : list N -> option (list N * list N).
Variable versions : list version.
Variable opn : list N -> list N -> option (list N).
Variable pol : policy.
Variable start : N.
Variable mint : list N -> addr -> N -> option (list N).
Variable fresh : dgram -> N -> option (list N).
Variable rnd : dgram -> N -> N.
Local Notation one := (s_one C c_valid c_input c_first c_new rexp rseal cid versions opn pol start mint fresh rnd).
Local Notation inp := (s_input C c_valid c_input c_first c_new rexp rseal cid versions opn pol start mint fresh rnd).
Local Notation from := (from_saved C c_valid c_input c_first c_new rexp rseal cid versions opn pol start mint fresh rnd).
Local Notation proc := (process C c_valid c_input c_output c_first c_closed c_new rexp rseal cid versions opn pol start mint fresh rnd).
Local Notation run := (s_run C c_valid c_input c_output c_first c_closed c_new rexp rseal cid versions opn pol start mint fresh rnd).
Local Notation hinit := (handle_initial C c_first c_new rseal opn pol start mint fresh rnd).
Local Notation pkt d := (decode_pkt rexp cid true (d_data d)).

Lemma inp_queue : forall ds cs now cs' l o rest, inp cs ds now = (cs', l, o, rest) ->
  handled l ++ map (fun d => (d, now)) rest = map (fun d => (d, now)) ds /\ (o = None -> rest = []) /\ (ds <> [] -> l <> []).
Proof.
  induction ds as [|d ds IH]; intros cs now cs' l o rest E; cbn [s_input] in E; [injection E as <- <- <- <-; splits; auto|].
  destruct (one cs d now) as [[cs1 f] [a|]]; [injection E as <- <- <- <-; split; [reflexivity|split; intros; discriminate]|].
  destruct (inp cs1 ds now) as [[[cs2 l2] o2] r2] eqn:E2. injection E as <- <- <- <-. destruct (IH _ _ _ _ _ _ E2) as (I1 & I2 & _). split; [|split; [exact I2|intros; discriminate]].
  unfold handled in *. cbn [map fst app]. rewrite I1. reflexivity.
Qed.
Lemma from_queue : forall sv cs ds now s l o, from cs sv ds now = (s, l, o) ->
  handled l ++ s_saved C s = sv ++ map (fun d => (d, now)) ds /\ (o = None -> s_saved C s = []) /\ (sv ++ map (fun d => (d, now)) ds <> [] -> l <> []).
Proof.
  induction sv as [|[d t] sv IH]; intros cs ds now s l o E; cbn [from_saved] in E.
  - destruct (inp cs ds now) as [[[cs1 l1] o1] r1] eqn:E1. injection E as <- <- <-. destruct (inp_queue _ _ _ _ _ _ _ E1) as (I1 & I2 & I3). cbn [s_saved app]. splits; auto; [intros H; rewrite (I2 H); reflexivity|]. intros H. apply I3. intros ->. apply H. reflexivity.
  - destruct (inp cs [d] t) as [[[cs1 l1] o1] r1] eqn:E1. destruct (inp_queue _ _ _ _ _ _ _ E1) as (I1 & I2 & I3). assert (L1 : l1 <> []) by (apply I3; discriminate).
    destruct o1 as [a|].
    + injection E as <- <- <-. cbn [s_saved]. split; [|split; [intros; discriminate|intros _; exact L1]].
      assert (R : r1 = [] /\ handled l1 = [(d, t)]).
      { destruct l1 as [|[e f] l1]; [congruence|]. cbn [handled map fst app] in I1 |- *. injection I1 as -> I1. apply app_eq_nil in I1. destruct I1 as [I1 I4]. destruct r1; [|discriminate I4]. unfold handled. rewrite I1. auto. }
      destruct R as [-> ->]. reflexivity.
    + rewrite (I2 eq_refl) in I1. cbn [map] in I1. rewrite app_nil_r in I1. destruct (from cs1 sv ds now) as [[s2 l2] o2] eqn:E2. injection E as <- <- <-. destruct (IH _ _ _ _ _ _ E2) as (J1 & J2 & _).
      unfold handled in *. rewrite map_app, I1. cbn [app map]. splits; auto; [rewrite J1; reflexivity|]. intros _ H. apply app_eq_nil in H. tauto.
Qed.
(** *** C105.  Every datagram given to the server is dealt with once, in the order given, as of the time it was given; what
    waits waits in that order; the server never stops on its assertion. *)
Theorem server_in_order : forall calls, exists s log outs, run (s_new C) calls = Some (s, log, outs) /\ length outs = length calls /\
  handled log ++ s_saved C s = given calls.
Proof.
  assert (G : forall calls s0, exists s log outs, run s0 calls = Some (s, log, outs) /\ length outs = length calls /\ handled log ++ s_saved C s = s_saved C s0 ++ given calls).
  { induction calls as [|[ds now] calls IH]; intros s0; [exists s0, [], []; cbn; rewrite app_nil_r; auto|]. cbn [s_run].
    assert (P : exists s1 l o, proc s0 ds now = Some (s1, l, o) /\ handled l ++ s_saved C s1 = s_saved C s0 ++ map (fun d => (d, now)) ds).
    { unfold process. destruct (from (s_conns C s0) (s_saved C s0) ds now) as [[s1 l] o] eqn:E. destruct (from_queue _ _ _ _ _ _ _ E) as (Q1 & Q2 & _). destruct o as [a|]; [eauto 6|]. rewrite (Q2 eq_refl) in *.
      destruct (outputs C c_output (s_conns C s1) now None) as [cs [|o|t]]; do 3 eexists; (split; [reflexivity|]); exact Q1. }
    destruct P as (s1 & l & o & -> & Q). destruct (IH s1) as (s2 & l2 & os & -> & L & H). do 3 eexists. split; [reflexivity|]. split; [cbn; lia|].
    unfold handled in *. rewrite map_app, <- app_assoc, H, app_assoc, Q. unfold given. cbn [flat_map fst snd]. rewrite app_assoc. reflexivity. }
  intros calls. exact (G calls (s_new C)).
Qed.
(** Each call makes progress on what waits, and returns without a datagram only when nothing waits. *)
Theorem server_progress : forall s ds now s' l o, proc s ds now = Some (s', l, o) ->
  (s_saved C s ++ map (fun d => (d, now)) ds <> [] -> l <> []) /\ ((forall ds, o <> CSend ds) -> s_saved C s' = []).
Proof.
  intros s ds now s' l o E. unfold process in E. destruct (from (s_conns C s) (s_saved C s) ds now) as [[s1 l1] o1] eqn:F. destruct (from_queue _ _ _ _ _ _ _ F) as (Q1 & Q2 & Q3).
  destruct o1 as [a|]; [injection E as <- <- <-; split; [exact Q3|intros H; destruct (H [a] eq_refl)]|]. rewrite (Q2 eq_refl) in E.
  destruct (outputs C c_output (s_conns C s1) now None) as [cs [|x|t]]; injection E as <- <- <-; (split; [exact Q3|reflexivity]).
Qed.

(** *** What is done with one datagram. *)
Lemma find_some : forall cs i k id, find_conn C c_valid i cs id = Some k ->
  exists l c r, cs = l ++ c :: r /\ k = (i + length l)%nat /\ c_valid c id = true /\ forall x, In x l -> c_valid x id = false.
Proof.
  induction cs as [|c cs IH]; intros i k id E; [discriminate|]. cbn [find_conn] in E. destruct (c_valid c id) eqn:V.
  - injection E as <-. exists [], c, cs. splits; auto. intros x [].
  - destruct (IH _ _ _ E) as (l & c' & r & -> & -> & V' & H). exists (c :: l), c', r. splits; auto; [cbn; lia|]. intros x [<-|I]; auto.
Qed.
Lemma find_none : forall cs i id, find_conn C c_valid i cs id = None -> forall c, In c cs -> c_valid c id = false.
Proof. induction cs as [|c cs IH]; intros i id E x I; [destruct I|]. cbn [find_conn] in E. destruct (c_valid c id) eqn:V; [discriminate|]. destruct I as [<-|I]; [exact V|exact (IH _ _ E _ I)]. Qed.
Lemma update_at : forall l c r f, update C (length l) f (l ++ c :: r) = l ++ f c :: r.
Proof. induction l as [|x l IH]; intros; cbn; [reflexivity|]. rewrite IH. reflexivity. Qed.
Lemma memv_in' v l : memv v l = true -> In v l.
Proof. unfold memv. rewrite existsb_exists. intros (x & I & E). destruct v, x; try discriminate E; exact I. Qed.
Lemma ids_fit d u rest : pkt d = Some (POk u rest) -> u_type u <> PShort -> exists sc, u_scid u = Some sc /\ (length (u_dcid u) + length sc <= length (d_data d))%nat.
Proof.
  intros E T. unfold decode_pkt in E.
  assert (G : forall scone data, decode_turn rexp cid true scone data = Some (POk u rest) -> exists sc, u_scid u = Some sc /\ (length (u_dcid u) + length sc <= length data)%nat).
  { intros scone data E'. unfold decode_turn in E'. destruct (rd_n 1 data) as [[first l0]|] eqn:R0; [|discriminate].
    assert (L0 : (length l0 <= length data)%nat) by (destruct (rd_n_suffix _ _ _ _ R0) as (h & -> & _); rewrite app_length; lia).
    destruct (N.land first 128 =? 0).
    - destruct (cid l0) as [[dc l1]|]; [|discriminate]. destruct (Nat.ltb _ _); [discriminate|]. injection E' as <- _. destruct (T eq_refl).
    - destruct (rd_n 4 l0) as [[ver l1]|] eqn:R1; [|discriminate]. assert (L1 : (length l1 <= length l0)%nat) by (destruct (rd_n_suffix _ _ _ _ R1) as (h & -> & _); rewrite app_length; lia).
      destruct (rd_vec 1 l1) as [[dc l2]|] eqn:R2; [|discriminate]. destruct (rd_vec_suffix _ _ _ _ R2) as (h2 & E2 & _). destruct (rd_vec 1 l2) as [[sc l3]|] eqn:R3; [|discriminate]. destruct (rd_vec_suffix _ _ _ _ R3) as (h3 & E3 & _).
      apply (f_equal (@length N)) in E2, E3. rewrite !app_length in E2, E3.
      destruct (ver =? 0); [injection E' as <- _; exists sc; cbn; split; [reflexivity|lia]|]. destruct ((ver =? SCONE1) || (ver =? SCONE2)); [destruct scone; discriminate|].
      destruct (version_of_wire ver); [|injection E' as <- _; exists sc; cbn; split; [reflexivity|lia]]. destruct ((MAX_CID <? lenN dc) || (MAX_CID <? lenN sc)); [discriminate|]. destruct (type_from_byte _ _); [|discriminate].
      destruct (decode_long _ _ _ _ _) as [[[tk hl] l4]|]; [|discriminate]. injection E' as <- _. exists sc. cbn. split; [reflexivity|lia]. }
  destruct (decode_turn rexp cid true None (d_data d)) as [[u' r'|e|rate r']|] eqn:D; try discriminate E.
  - injection E as -> ->. exact (G _ _ D).
  - destruct (G _ _ E) as (sc & S & L). exists sc. split; [exact S|]. assert (length r' <= length (d_data d))%nat; [|lia]. unfold decode_turn in D. destruct (rd_n 1 (d_data d)) as [[first l0]|] eqn:R0; [|discriminate].
    assert (L0 : (length l0 <= length (d_data d))%nat) by (destruct (rd_n_suffix _ _ _ _ R0) as (h & -> & _); rewrite app_length; lia).
    destruct (N.land first 128 =? 0); [destruct (cid l0) as [[? ?]|]; [|discriminate]; destruct (Nat.ltb _ _); discriminate|].
    destruct (rd_n 4 l0) as [[ver l1]|] eqn:R1; [|discriminate]. assert (L1 : (length l1 <= length l0)%nat) by (destruct (rd_n_suffix _ _ _ _ R1) as (h & -> & _); rewrite app_length; lia).
    destruct (rd_vec 1 l1) as [[dc l2]|] eqn:R2; [|discriminate]. destruct (rd_vec_suffix _ _ _ _ R2) as (h2 & E2 & _). destruct (rd_vec 1 l2) as [[sc' l3]|] eqn:R3; [|discriminate]. destruct (rd_vec_suffix _ _ _ _ R3) as (h3 & E3 & _).
    apply (f_equal (@length N)) in E2, E3. rewrite !app_length in E2, E3. destruct (ver =? 0); [discriminate|]. destruct ((ver =? SCONE1) || (ver =? SCONE2)); [injection D as _ <-; lia|].
    destruct (version_of_wire ver); [|discriminate]. destruct ((MAX_CID <? lenN dc) || (MAX_CID <? lenN sc')); [discriminate|]. destruct (type_from_byte _ _); [|discriminate]. destruct (decode_long _ _ _ _ _) as [[[? ?] ?]|]; discriminate.
Qed.
(** Everything that can happen to a datagram. *)
Definition explains (cs : list C) (d : dgram) (now : N) (cs' : list C) (f : fate) (o : option dgram) : Prop :=
  match f with
  | FRouted i => o = None /\ exists u rest l c r, pkt d = Some (POk u rest) /\ cs = l ++ c :: r /\ cs' = l ++ c_input c d now :: r /\ length l = i /\
      c_valid c (u_dcid u) = true /\ forall x, In x l -> c_valid x (u_dcid u) = false
  | FAccepted od => exists u rest v sc c, pkt d = Some (POk u rest) /\ u_type u = PInitial /\ u_ver u = Some (wire v) /\ In v versions /\ u_scid u = Some sc /\ MIN_INITIAL <= lenN (d_data d) /\
      (forall x, In x cs -> c_valid x (u_dcid u) = false) /\
      validate opn pol start (u_token u) (d_src d) now = (match od with Some c => ValidRetry c | None => Pass end) /\
      c_new (mkDet sc (u_dcid u) (u_token u) v) od now = Some c /\ cs' = cs ++ [fst (c_first c d now)] /\ o = snd (c_first c d now)
  | FVersions a => cs' = cs /\ o = Some a /\ d_src a = d_dst d /\ d_dst a = d_src d /\ MIN_INITIAL <= lenN (d_data d) /\ lenN (d_data a) <= lenN (d_data d) + 11 + 4 * lenN versions /\
      exists u rest, pkt d = Some (POk u rest) /\ (forall x, In x cs -> c_valid x (u_dcid u) = false) /\ (u_type u = POther \/ (u_type u = PInitial /\ forall v, In v versions -> u_ver u <> Some (wire v)))
  | FRetry a => cs' = cs /\ o = Some a /\ d_src a = d_dst d /\ d_dst a = d_src d /\ MIN_INITIAL <= lenN (d_data d) /\
      exists u rest v id tk odcid_tag, pkt d = Some (POk u rest) /\ (forall x, In x cs -> c_valid x (u_dcid u) = false) /\ u_type u = PInitial /\ u_ver u = Some (wire v) /\ In v versions /\
        validate opn pol start (u_token u) (d_src d) now = Validate /\ 8 <= lenN (u_dcid u) /\ mint (u_dcid u) (d_src d) now = Some tk /\ fresh d now = Some id /\
        lenN (d_data a) <= lenN (d_data d) + 7 + lenN id + lenN tk + lenN (rseal odcid_tag)
  | _ => cs' = cs /\ o = None
  end.
Lemma wire_inj v w : wire v = wire w -> v = w.
Proof. destruct v, w; intros H; try reflexivity; discriminate H. Qed.
Lemma of_wire w v : version_of_wire w = Some v -> w = wire v.
Proof. unfold version_of_wire. intros H. repeat match type of H with (if ?b then _ else _) = _ => let E := fresh in destruct b eqn:E; [apply N.eqb_eq in E; injection H as <-; exact E|] end. discriminate H. Qed.
Lemma vec1_len v : length (vec1 v) = S (length v).
Proof. unfold vec1. rewrite app_length. reflexivity. Qed.
Lemma flat4 l : length (flat_map (be_bytes 4) l) = (4 * length l)%nat.
Proof. induction l; [reflexivity|]. cbn [flat_map]. rewrite app_length, IHl. cbn [length]. change (length (be_bytes 4 a)) with 4%nat. lia. Qed.
Lemma initial_ver d u rest : pkt d = Some (POk u rest) -> u_type u = PInitial -> exists v, u_ver u = Some (wire v).
Proof.
  intros E T. unfold decode_pkt in E.
  assert (G : forall scone data, decode_turn rexp cid true scone data = Some (POk u rest) -> exists v, u_ver u = Some (wire v)).
  { intros scone data E'. unfold decode_turn in E'. destruct (rd_n 1 data) as [[first l0]|]; [|discriminate]. destruct (N.land first 128 =? 0).
    - destruct (cid l0) as [[dc l1]|]; [|discriminate]. destruct (Nat.ltb _ _); [discriminate|]. injection E' as <- _. discriminate T.
    - destruct (rd_n 4 l0) as [[ver l1]|]; [|discriminate]. destruct (rd_vec 1 l1) as [[dc l2]|]; [|discriminate]. destruct (rd_vec 1 l2) as [[sc l3]|]; [|discriminate].
      destruct (ver =? 0); [injection E' as <- _; discriminate T|]. destruct ((ver =? SCONE1) || (ver =? SCONE2)); [destruct scone; discriminate|]. destruct (version_of_wire ver) as [v|]; [|injection E' as <- _; discriminate T].
      destruct ((MAX_CID <? lenN dc) || (MAX_CID <? lenN sc)); [discriminate|]. destruct (type_from_byte _ _); [|discriminate]. destruct (decode_long _ _ _ _ _) as [[[? ?] ?]|]; [|discriminate]. injection E' as <- _. exists v. reflexivity. }
  destruct (decode_turn rexp cid true None (d_data d)) as [[u' r'|e|rate r']|] eqn:D; try discriminate E; [injection E as -> ->; exact (G _ _ D)|exact (G _ _ E)].
Qed.
Lemma one_explained cs d now cs' f o : one cs d now = (cs', f, o) -> explains cs d now cs' f o.
Proof.
  intros E. unfold s_one in E. destruct (pkt d) as [[u rest|e|rate r]|] eqn:P; try (injection E as <- <- <-; split; reflexivity).
  destruct (find_conn C c_valid 0 cs (u_dcid u)) as [k|] eqn:F.
  { injection E as <- <- <-. destruct (find_some _ _ _ _ F) as (l & c & r & -> & -> & V & H). cbn [Nat.add]. rewrite update_at. split; [reflexivity|]. exists u, rest, l, c, r. splits; auto. }
  pose proof (find_none _ _ _ F) as Nv.
  assert (Vn : forall g, u_type u = POther \/ (u_type u = PInitial /\ forall v, In v versions -> u_ver u <> Some (wire v)) -> forall w,
    (if lenN (d_data d) <? MIN_INITIAL then (cs, FTooShort, None) else let o := mkD (d_dst d) (d_src d) (build_vn (g mod 256) (g / 256 mod 256) (g / 65536 mod 256) (g / 16777216 mod 256) (match u_scid u with Some s => s | None => [] end) (u_dcid u) w versions) in (cs, FVersions o, Some o)) = (cs', f, o) -> explains cs d now cs' f o).
  { intros g T w X. destruct (N.ltb_spec (lenN (d_data d)) MIN_INITIAL) as [|L]; [injection X as <- <- <-; split; reflexivity|]. injection X as <- <- <-. cbn [explains d_src d_dst d_data]. splits; auto.
    - destruct (ids_fit _ _ _ P) as (sc & -> & Lf); [destruct T as [T|[T _]]; congruence|]. unfold build_vn, lenN. cbn [length]. rewrite !app_length, repeat_length, !vec1_len, flat4. unfold vn_versions. rewrite app_length, map_length. cbn [length]. lia.
    - exists u, rest. splits; auto. }
  destruct (u_type u) eqn:T; try (injection E as <- <- <-; split; reflexivity); [|apply (Vn (rnd d now) (or_introl eq_refl) _ E)].
  destruct (initial_ver _ _ _ P T) as (v & Ev). rewrite Ev in E. replace (version_of_wire (wire v)) with (Some v) in E by (destruct v; reflexivity).
  destruct (memv v versions) eqn:M; cbn [negb] in E.
  2: { refine (Vn (rnd d now) (or_intror (conj eq_refl _)) _ E). intros v' I X. rewrite Ev in X. injection X as X. apply wire_inj in X. subst v'. assert (memv v versions = true); [|congruence]. unfold memv. apply existsb_exists. exists v. split; [exact I|destruct v; reflexivity]. }
  apply memv_in' in M. destruct (N.ltb_spec (lenN (d_data d)) MIN_INITIAL) as [|L]; [injection E as <- <- <-; split; reflexivity|].
  destruct (ids_fit _ _ _ P) as (sc & Es & Lf); [congruence|]. rewrite Es in E. unfold handle_initial in E. cbn [i_token i_dcid i_scid i_version] in E.
  assert (Ac : forall od, validate opn pol start (u_token u) (d_src d) now = (match od with Some c => ValidRetry c | None => Pass end) ->
    accept C c_first c_new cs (mkDet sc (u_dcid u) (u_token u) v) d od now = (cs', f, o) -> explains cs d now cs' f o).
  { intros od Vd X. unfold accept in X. destruct (c_new _ od now) as [c|] eqn:Nw; [|injection X as <- <- <-; split; reflexivity]. destruct (c_first c d now) as [c' o'] eqn:Fi. injection X as <- <- <-. exists u, rest, v, sc, c. rewrite Fi. splits; auto. }
  destruct (validate opn pol start (u_token u) (d_src d) now) as [|c| | |] eqn:Vd; try (injection E as <- <- <-; split; reflexivity); [exact (Ac None eq_refl E)|exact (Ac (Some c) eq_refl E)|].
  destruct (N.ltb_spec (lenN (u_dcid u)) 8) as [|L8]; [injection E as <- <- <-; split; reflexivity|]. destruct (mint (u_dcid u) (d_src d) now) as [tk|] eqn:Mi; [|injection E as <- <- <-; split; reflexivity].
  destruct (fresh d now) as [id|] eqn:Fr; [|injection E as <- <- <-; split; reflexivity]. destruct (build_retry rseal v sc id tk (u_dcid u) (rnd d now)) as [p|] eqn:B; [|injection E as <- <- <-; split; reflexivity].
  injection E as <- <- <-. cbn [explains d_src d_dst d_data]. unfold build_retry in B. destruct (type_to_byte PRetry v) as [t|]; [|discriminate B].
  destruct tk as [|t0 tk]; [discriminate B|]. set (h := N.lor _ _ :: _) in B. assert (B' : p = h ++ rseal (vec1 (u_dcid u) ++ h)) by congruence. clear B. do 5 (split; [auto|]). exists u, rest, v, id, (t0 :: tk), (vec1 (u_dcid u) ++ h). splits; auto.
  rewrite B'. unfold lenN. rewrite app_length. unfold h at 1. cbn [length]. rewrite !app_length, !vec1_len. change (length (be_bytes 4 (wire v))) with 4%nat. cbn [length]. lia.
Qed.
(** The entries of a log come from handling one datagram with the connections there were. *)
Lemma inp_log : forall ds cs now cs' l o rest, inp cs ds now = (cs', l, o, rest) -> forall d t f, In (d, t, f) l -> exists c1 c2 a, one c1 d t = (c2, f, a).
Proof.
  induction ds as [|d ds IH]; intros cs now cs' l o rest E d' t f I; cbn [s_input] in E; [injection E as <- <- <- <-; destruct I|].
  destruct (one cs d now) as [[cs1 f1] [a|]] eqn:O; [injection E as <- <- <- <-; destruct I as [X|[]]; injection X as <- <- <-; eauto|].
  destruct (inp cs1 ds now) as [[[cs2 l2] o2] r2] eqn:E2. injection E as <- <- <- <-. destruct I as [X|I]; [injection X as <- <- <-; eauto|]. exact (IH _ _ _ _ _ _ E2 _ _ _ I).
Qed.
Lemma from_log : forall sv cs ds now s l o, from cs sv ds now = (s, l, o) -> forall d t f, In (d, t, f) l -> exists c1 c2 a, one c1 d t = (c2, f, a).
Proof.
  induction sv as [|[d t] sv IH]; intros cs ds now s l o E d' t' f I; cbn [from_saved] in E.
  - destruct (inp cs ds now) as [[[cs1 l1] o1] r1] eqn:E1. injection E as <- <- <-. exact (inp_log _ _ _ _ _ _ _ E1 _ _ _ I).
  - destruct (inp cs [d] t) as [[[cs1 l1] o1] r1] eqn:E1. destruct o1 as [a|]; [injection E as <- <- <-; exact (inp_log _ _ _ _ _ _ _ E1 _ _ _ I)|].
    destruct (from cs1 sv ds now) as [[s2 l2] o2] eqn:E2. injection E as <- <- <-. apply in_app_or in I. destruct I as [I|I]; [exact (inp_log _ _ _ _ _ _ _ E1 _ _ _ I)|exact (IH _ _ _ _ _ _ E2 _ _ _ I)].
Qed.
Lemma run_log : forall calls s0 s log outs, run s0 calls = Some (s, log, outs) -> forall d t f, In (d, t, f) log -> exists c1 c2 a, one c1 d t = (c2, f, a).
Proof.
  induction calls as [|[ds now] calls IH]; intros s0 s log outs E d t f I; cbn [s_run] in E; [injection E as <- <- <-; destruct I|].
  destruct (proc s0 ds now) as [[[s1 l] o]|] eqn:P; [|discriminate]. destruct (run s1 calls) as [[[s2 l2] os]|] eqn:R; [|discriminate]. injection E as <- <- <-.
  apply in_app_or in I. destruct I as [I|I]; [|exact (IH _ _ _ _ R _ _ _ I)]. unfold process in P. destruct (from (s_conns C s0) (s_saved C s0) ds now) as [[s3 l3] o3] eqn:F.
  assert (l = l3) by (destruct o3; [injection P as <- <- <-; reflexivity|]; destruct (s_saved C s3); [|discriminate]; destruct (outputs C c_output (s_conns C s3) now None) as [? [| |]]; injection P as <- <- <-; reflexivity). subst l3.
  exact (from_log _ _ _ _ _ _ _ F _ _ _ I).
Qed.
(** A datagram reaches a connection only if that connection knows the identifier in its first packet, and the first such. *)
Theorem server_routes : forall cs d now cs' i o, one cs d now = (cs', FRouted i, o) ->
  o = None /\ exists u rest l c r, pkt d = Some (POk u rest) /\ cs = l ++ c :: r /\ cs' = l ++ c_input c d now :: r /\ length l = i /\
    c_valid c (u_dcid u) = true /\ forall x, In x l -> c_valid x (u_dcid u) = false.
Proof. intros cs d now cs' i o E. exact (one_explained _ _ _ _ _ _ E). Qed.
(** One whose identifier a connection knows is given to it, whatever it is. *)
Theorem server_routes_known : forall cs d now u rest, pkt d = Some (POk u rest) -> (exists c, In c cs /\ c_valid c (u_dcid u) = true) -> exists cs' i, one cs d now = (cs', FRouted i, None).
Proof.
  intros cs d now u rest P (c & I & V). unfold s_one. rewrite P. destruct (find_conn C c_valid 0 cs (u_dcid u)) as [k|] eqn:F; [eauto|]. rewrite (find_none _ _ _ F _ I) in V. discriminate.
Qed.
(** Any other changes no connection that was there; it adds one, or none. *)
Theorem server_leaves_others : forall cs d now cs' f o, one cs d now = (cs', f, o) -> (forall i, f <> FRouted i) ->
  if is_accepted f then exists c, cs' = cs ++ [c] else cs' = cs.
Proof.
  intros cs d now cs' f o E N. pose proof (one_explained _ _ _ _ _ _ E) as X. destruct f; cbn [explains is_accepted] in *; try tauto; [destruct (N i eq_refl)|]. destruct X as (u & r & v & sc & c & _ & _ & _ & _ & _ & _ & _ & _ & _ & -> & _). eauto.
Qed.
(** Connections are created only for Initial packets of a supported version in datagrams of at least 1200 bytes whose
    identifier is unknown, and whose sender's address passed validation. *)
Theorem server_accepts_only : forall calls s log outs d t od, run (s_new C) calls = Some (s, log, outs) -> In (d, t, FAccepted od) log ->
  exists u rest v, pkt d = Some (POk u rest) /\ u_type u = PInitial /\ u_ver u = Some (wire v) /\ In v versions /\ 1200 <= lenN (d_data d) /\
    validate opn pol start (u_token u) (d_src d) t = (match od with Some c => ValidRetry c | None => Pass end).
Proof.
  intros calls s log outs d t od R I. destruct (run_log _ _ _ _ _ R _ _ _ I) as (c1 & c2 & a & O). destruct (one_explained _ _ _ _ _ _ O) as (u & r & v & sc & c & H1 & H2 & H3 & H4 & _ & H5 & _ & H6 & _). exists u, r, v. splits; auto.
Qed.
(** When addresses are always to be validated, each came from an address and port to which this server had sent a Retry
    token, for this connection, at most five seconds before. *)
Theorem server_validates : forall calls s log outs d t od hist, pol = Always -> authentic start hist opn -> hist_ok start hist -> (forall d t, In (d, t) (given calls) -> addr_ok (d_src d)) ->
  run (s_new C) calls = Some (s, log, outs) -> In (d, t, FAccepted od) log ->
  exists c i, od = Some c /\ In i hist /\ s_dcid i = Some c /\ s_addr i = d_src d /\ t <= s_time i + 5000 * MS.
Proof.
  intros calls s log outs d t od hist Ep Au Ho Ad R I. destruct (server_accepts_only _ _ _ _ _ _ _ R I) as (u & r & v & _ & _ & _ & _ & _ & V).
  assert (A : addr_ok (d_src d)).
  { destruct (server_in_order calls) as (s' & log' & outs' & R' & _ & G). rewrite R in R'. injection R' as <- <- <-. apply (Ad d t). rewrite <- G. apply in_or_app. left. unfold handled. apply in_map_iff. exists (d, t, FAccepted od). auto. }
  assert (Np : pol <> Never) by congruence.
  destruct od as [c|]; [|destruct (new_token_accepted_only_if_issued _ _ _ _ _ _ _ Au Ho A Np V) as [X _]; congruence].
  destruct (retry_accepted_only_if_issued _ _ _ _ _ _ _ _ Au Ho A V) as (i & I1 & _ & I2 & I3 & I4). exists c, i. splits; auto.
Qed.
(** The new connection is made from what the packet says, is given the datagram, and its answer is the server's. *)
Theorem server_creates : forall cs d now cs' od o, one cs d now = (cs', FAccepted od, o) ->
  exists u rest v sc c, pkt d = Some (POk u rest) /\ (forall x, In x cs -> c_valid x (u_dcid u) = false) /\ u_ver u = Some (wire v) /\ u_scid u = Some sc /\
    c_new (mkDet sc (u_dcid u) (u_token u) v) od now = Some c /\ cs' = cs ++ [fst (c_first c d now)] /\ o = snd (c_first c d now).
Proof. intros cs d now cs' od o E. destruct (one_explained _ _ _ _ _ _ E) as (u & r & v & sc & c & H1 & _ & H2 & _ & H3 & _ & H4 & _ & H5 & H6 & H7). exists u, r, v, sc, c. splits; auto. Qed.
(** A Retry is sent only when the address is to be validated, to an identifier of at least eight bytes, with a token made for
    that identifier and the sender's address at that time. *)
Theorem server_retries : forall cs d now cs' a o, one cs d now = (cs', FRetry a, o) ->
  o = Some a /\ exists u rest tk, pkt d = Some (POk u rest) /\ u_type u = PInitial /\ validate opn pol start (u_token u) (d_src d) now = Validate /\ 8 <= lenN (u_dcid u) /\ mint (u_dcid u) (d_src d) now = Some tk.
Proof. intros cs d now cs' a o E. destruct (one_explained _ _ _ _ _ _ E) as (_ & H & _ & _ & _ & u & r & v & id & tk & tg & H1 & _ & H2 & _ & _ & H3 & H4 & H5 & _). split; [exact H|]. exists u, r, tk. splits; auto. Qed.
(** Stateless answers go back to the sender, from the address the datagram was sent to; only to datagrams of at least 1200
    bytes, and at most three times their size. *)
Theorem server_answers : forall calls s log outs d t f a, lenN versions <= 100 -> (forall x y z tk, mint x y z = Some tk -> lenN tk <= 1000) -> (forall x y id, fresh x y = Some id -> lenN id <= 20) -> (forall x, lenN (rseal x) = 16) ->
  run (s_new C) calls = Some (s, log, outs) -> In (d, t, f) log -> answer_of f = Some a ->
  d_src a = d_dst d /\ d_dst a = d_src d /\ 1200 <= lenN (d_data d) /\ lenN (d_data a) <= 3 * lenN (d_data d).
Proof.
  intros calls s log outs d t f a Lv Lm Lf Ls R I An. destruct (run_log _ _ _ _ _ R _ _ _ I) as (c1 & c2 & o & O). pose proof (one_explained _ _ _ _ _ _ O) as X. destruct f; try discriminate An; injection An as ->; cbn [explains] in X; unfold MIN_INITIAL in X.
  - destruct X as (_ & _ & X1 & X2 & X3 & X4 & _). splits; auto. lia.
  - destruct X as (_ & _ & X1 & X2 & X3 & u & r & v & id & tk & tag & _ & _ & _ & _ & _ & _ & _ & M & F & X4). splits; auto. apply Lm in M. apply Lf in F. rewrite Ls in X4. lia.
Qed.
(** Nothing is answered to a packet with a short header, a Version Negotiation, Retry, Handshake or 0-RTT packet. *)
Theorem server_silent : forall cs d now cs' f o u rest, one cs d now = (cs', f, o) -> pkt d = Some (POk u rest) -> u_type u <> PInitial -> u_type u <> POther -> o = None /\ is_accepted f = false.
Proof.
  intros cs d now cs' f o u rest E P N1 N2. pose proof (one_explained _ _ _ _ _ _ E) as X. destruct f; cbn [explains is_accepted] in *; try tauto.
  - destruct X as (_ & _ & _ & _ & _ & _ & u' & r' & P' & _ & T). rewrite P in P'. injection P' as <- <-. tauto.
  - destruct X as (_ & _ & _ & _ & _ & u' & r' & v & id & tk & tg & P' & _ & T & _). rewrite P in P'. injection P' as <- <-. tauto.
  - destruct X as (u' & r' & v & sc & c & P' & T & _). rewrite P in P'. injection P' as <- <-. tauto.
Qed.
(** *** Connections. *)
Lemma acc_cons e l : accepted (e :: l) = ((if is_accepted (snd e) then 1 else 0) + accepted l)%nat.
Proof. unfold accepted. cbn [filter]. destruct (is_accepted (snd e)); reflexivity. Qed.
Lemma acc_app a b : accepted (a ++ b) = (accepted a + accepted b)%nat.
Proof. unfold accepted. rewrite filter_app, app_length. reflexivity. Qed.
Lemma outputs_spec : forall cs now call cs' o, outputs C c_output cs now call = (cs', o) ->
  match o with
  | CSend ds => exists l c r, cs = l ++ c :: r /\ cs' = map (fun c => fst (c_output c now)) (l ++ [c]) ++ r /\ snd (c_output c now) = CSend ds
  | CCall t => cs' = map (fun c => fst (c_output c now)) cs /\ (forall c, In c cs -> match snd (c_output c now) with CNone => True | CSend _ => False | CCall u => t <= u end) /\
      match call with Some p => t <= p /\ (t = p \/ exists c, In c cs /\ snd (c_output c now) = CCall t) | None => exists c, In c cs /\ snd (c_output c now) = CCall t end
  | CNone => cs' = map (fun c => fst (c_output c now)) cs /\ call = None /\ forall c, In c cs -> snd (c_output c now) = CNone
  end.
Proof.
  induction cs as [|c cs IH]; intros now call cs' o E; cbn [outputs] in E.
  - injection E as <- <-. destruct call as [p|]; [|splits; auto; intros ? []]. split; [reflexivity|]. split; [intros ? []|]. split; [lia|auto].
  - destruct (c_output c now) as [c' x] eqn:O. destruct x as [|ds|t].
    + destruct (outputs C c_output cs now call) as [r y] eqn:R. injection E as <- <-. pose proof (IH _ _ _ _ R) as H. destruct y as [|ds|t].
      * destruct H as (-> & H1 & H2). cbn [map]. rewrite O. splits; auto. intros z [<-|I]; [rewrite O; reflexivity|auto].
      * destruct H as (l & z & r' & -> & -> & H). exists (c :: l), z, r'. cbn [map app]. rewrite O. splits; auto.
      * destruct H as (-> & H1 & H2). cbn [map]. rewrite O. split; [reflexivity|]. split; [intros z [<-|I]; [rewrite O; exact Logic.I|exact (H1 _ I)]|]. destruct call as [p|]; [destruct H2 as [H2 [H3|(z & I & H3)]]; split; auto; right; exists z; split; [right; exact I|exact H3]|destruct H2 as (z & I & H3); exists z; split; [right; exact I|exact H3]].
    + injection E as <- <-. exists [], c, cs. cbn [app map]. rewrite O. splits; auto.
    + destruct (outputs C c_output cs now _) as [r y] eqn:R. injection E as <- <-. pose proof (IH _ _ _ _ R) as H. destruct y as [|ds|t'].
      * destruct H as (_ & H & _). discriminate H.
      * destruct H as (l & z & r' & -> & -> & H). exists (c :: l), z, r'. cbn [map app]. rewrite O. splits; auto.
      * destruct H as (-> & H1 & H2 & H3). cbn [map]. rewrite O. split; [reflexivity|]. split; [intros z [<-|I]; [rewrite O; cbn [snd]; destruct call; lia|exact (H1 _ I)]|].
        destruct call as [p|].
        { split; [lia|]. destruct H3 as [H3|(z & I & H3)]; [|right; exists z; split; [right; exact I|exact H3]]. destruct (N.min_spec p t) as [[L M]|[L M]]; rewrite M in H3; [left; exact H3|]. right. exists c. split; [left; reflexivity|]. rewrite O, H3. reflexivity. }
        { destruct H3 as [->|(z & I & H3)]; [exists c; split; [left; reflexivity|rewrite O; reflexivity]|exists z; split; [right; exact I|exact H3]]. }
Qed.
Local Notation ev := (evolves c_input c_output).
Lemma ev_trans a b c : ev a b -> ev b c -> ev a c.
Proof. induction 1; intros H'; [exact H'|eapply ev_input|eapply ev_output]; eauto. Qed.
Definition kept (n : nat) (a b : list C) : Prop := exists a' x, b = a' ++ x /\ Forall2 ev a a' /\ length x = n.
Lemma f2_refl a : Forall2 ev a a.
Proof. induction a; constructor; [constructor|assumption]. Qed.
Lemma f2_length : forall a b, Forall2 ev a b -> length a = length b.
Proof. induction 1; cbn; congruence. Qed.
Lemma f2_trans : forall a b, Forall2 ev a b -> forall c, Forall2 ev b c -> Forall2 ev a c.
Proof. induction 1; intros c H'; inversion H'; subst; [constructor|]. constructor; [eapply ev_trans; eauto|auto]. Qed.
Lemma kept_trans n m a b c : kept n a b -> kept m b c -> kept (n + m) a c.
Proof.
  intros (a' & x & -> & F & <-) (b' & y & -> & F' & <-). apply Forall2_app_inv_l in F'. destruct F' as (p & q & F1 & F2 & ->). exists p, (q ++ y). rewrite app_assoc. splits; auto; [exact (f2_trans _ _ F _ F1)|]. rewrite app_length, (f2_length _ _ F2). reflexivity.
Qed.
Lemma kept_same a : kept 0 a a.
Proof. exists a, []. rewrite app_nil_r. splits; auto. apply f2_refl. Qed.
Lemma one_kept cs d now cs' f o : one cs d now = (cs', f, o) -> kept (if is_accepted f then 1 else 0) cs cs'.
Proof.
  intros E. pose proof (one_explained _ _ _ _ _ _ E) as X. destruct f; cbn [explains is_accepted] in *; try (destruct X as [-> _]; apply kept_same).
  - destruct X as (_ & u & r & l & c & r' & _ & -> & -> & _). exists (l ++ c_input c d now :: r'), []. rewrite app_nil_r. splits; auto. apply Forall2_app; [apply f2_refl|]. constructor; [|apply f2_refl]. eapply ev_input. constructor.
  - destruct X as (u & r & v & sc & c & _ & _ & _ & _ & _ & _ & _ & _ & _ & -> & _). do 2 eexists. split; [reflexivity|]. split; [apply f2_refl|reflexivity].
Qed.
Lemma inp_kept : forall ds cs now cs' l o rest, inp cs ds now = (cs', l, o, rest) -> kept (accepted l) cs cs'.
Proof.
  induction ds as [|d ds IH]; intros cs now cs' l o rest E; cbn [s_input] in E; [injection E as <- <- <- <-; apply kept_same|].
  destruct (one cs d now) as [[cs1 f1] [a|]] eqn:O; pose proof (one_kept _ _ _ _ _ _ O) as L; [injection E as <- <- <- <-; rewrite acc_cons; cbn [snd]; unfold accepted; cbn [filter length]; rewrite Nat.add_0_r; exact L|].
  destruct (inp cs1 ds now) as [[[cs2 l2] o2] r2] eqn:E2. injection E as <- <- <- <-. rewrite acc_cons. exact (kept_trans _ _ _ _ _ L (IH _ _ _ _ _ _ E2)).
Qed.
Lemma from_kept : forall sv cs ds now s l o, from cs sv ds now = (s, l, o) -> kept (accepted l) cs (s_conns C s).
Proof.
  induction sv as [|[d t] sv IH]; intros cs ds now s l o E; cbn [from_saved] in E.
  - destruct (inp cs ds now) as [[[cs1 l1] o1] r1] eqn:E1. injection E as <- <- <-. exact (inp_kept _ _ _ _ _ _ _ E1).
  - destruct (inp cs [d] t) as [[[cs1 l1] o1] r1] eqn:E1. pose proof (inp_kept _ _ _ _ _ _ _ E1) as L. destruct o1 as [a|]; [injection E as <- <- <-; exact L|].
    destruct (from cs1 sv ds now) as [[s2 l2] o2] eqn:E2. injection E as <- <- <-. rewrite acc_app. exact (kept_trans _ _ _ _ _ L (IH _ _ _ _ _ _ E2)).
Qed.
Lemma out_kept cs now : kept 0 cs (map (fun c => fst (c_output c now)) cs).
Proof. exists (map (fun c => fst (c_output c now)) cs), []. rewrite app_nil_r. splits; auto. induction cs; constructor; auto. eapply ev_output. constructor. Qed.
(** Each connection there was is still there, in its place, with only what it took in and was asked for done to it, followed by
    one for each datagram accepted; a connection goes only once it is closed, and a call that returns no datagram leaves no
    closed one behind. *)
Theorem server_connections : forall s ds now s' l o, proc s ds now = Some (s', l, o) ->
  exists old new, Forall2 ev (s_conns C s) old /\ length new = accepted l /\
    match o with CSend _ => s_conns C s' = old ++ new | _ => s_conns C s' = filter (fun c => negb (c_closed c)) (old ++ new) end.
Proof.
  intros s ds now s' l o E. unfold process in E. destruct (from (s_conns C s) (s_saved C s) ds now) as [[s1 l1] o1] eqn:F. pose proof (from_kept _ _ _ _ _ _ _ F) as L.
  destruct o1 as [a|]; [injection E as <- <- <-; destruct L as (p & q & -> & L & <-); eauto|]. destruct (s_saved C s1); [|discriminate].
  destruct (outputs C c_output (s_conns C s1) now None) as [cs x] eqn:O. pose proof (outputs_spec _ _ _ _ _ O) as X.
  assert (K : kept (accepted l1) (s_conns C s) cs).
  { rewrite <- (Nat.add_0_r (accepted l1)). apply (kept_trans _ _ _ _ _ L). destruct x as [|ds'|t]; [destruct X as [-> _]; apply out_kept| |destruct X as [-> _]; apply out_kept].
    destruct X as (l0 & c & r & -> & -> & _). replace (l0 ++ c :: r) with ((l0 ++ [c]) ++ r) by (rewrite <- app_assoc; reflexivity). destruct (out_kept (l0 ++ [c]) now) as (p & q & E1 & E2 & E3). destruct q; [|discriminate E3]. rewrite app_nil_r in E1. exists (p ++ r), []. rewrite app_nil_r, E1. splits; auto. apply Forall2_app; [exact E2|apply f2_refl]. }
  destruct K as (p & q & -> & K1 & K2). exists p, q. destruct x as [|ds'|t]; injection E as <- <- <-; cbn [s_conns]; splits; auto.
Qed.
(** The time to call again is the earliest any connection asks for; with no time given, none asks. *)
Theorem server_wakes : forall s ds now s' l o, proc s ds now = Some (s', l, o) ->
  match o with
  | CSend _ => True
  | CCall t => exists cs, s_conns C s' = filter (fun c => negb (c_closed c)) (map (fun c => fst (c_output c now)) cs) /\
      (forall c, In c cs -> match snd (c_output c now) with CNone => True | CSend _ => False | CCall u => t <= u end) /\ exists c, In c cs /\ snd (c_output c now) = CCall t
  | CNone => exists cs, s_conns C s' = filter (fun c => negb (c_closed c)) (map (fun c => fst (c_output c now)) cs) /\ forall c, In c cs -> snd (c_output c now) = CNone
  end.
Proof.
  intros s ds now s' l o E. unfold process in E. destruct (from (s_conns C s) (s_saved C s) ds now) as [[s1 l1] o1] eqn:F. destruct o1 as [a|]; [injection E as <- <- <-; exact Logic.I|]. destruct (s_saved C s1); [|discriminate].
  destruct (outputs C c_output (s_conns C s1) now None) as [cs x] eqn:O. pose proof (outputs_spec _ _ _ _ _ O) as X. destruct x as [|ds'|t]; injection E as <- <- <-; [|exact Logic.I|].
  - destruct X as (-> & _ & X). exists (s_conns C s1). auto.
  - destruct X as (-> & X1 & X2). exists (s_conns C s1). auto.
Qed.
End Server.

(** *** A case that meets the hypotheses, and what the code does not do.
    A connection that does nothing: what the code's connection does with an Initial packet it cannot decrypt
    (connection/mod.rs 1592-1625: it stays in WaitInitial; 1277-1279: it has no output and no timer; 1925-1931: the datagram is
    dropped).  It knows only the identifier it was created with (its own, which the peer never learns). *)
Definition idle := list N.
Definition i_valid (c : idle) (id : list N) : bool := if list_eq_dec N.eq_dec c id then true else false.
Definition i_input (c : idle) (_ : dgram) (_ : N) : idle := c.
Definition i_output (c : idle) (_ : N) : idle * cout := (c, CNone).
Definition i_first (c : idle) (_ : dgram) (_ : N) : idle * option dgram := (c, None).
Definition i_closed (_ : idle) : bool := false.
Definition i_new (_ : details) (_ : option (list N)) (_ : N) : option idle := Some [7; 7; 7; 7].
Definition ex_seal (_ : list N) : list N := repeat 0 16.
Definition ex_cid (l : list N) : option (list N * list N) := if Nat.ltb (length l) 4 then None else Some (firstn 4 l, skipn 4 l).
Definition ex_run (pol : policy) := s_run idle i_valid i_input i_output i_first i_closed i_new (fun _ => 16%nat) ex_seal ex_cid [Version1] (fun _ _ => None) pol 0 (fun _ _ _ => Some [1; 2; 3]) (fun _ _ => Some [5; 5; 5; 5]) (fun _ _ => 0).
Definition ex_addr : addr := mkAddr (V4 [192; 0; 2; 1]) 443.
(** An Initial packet of version 1 with an eight-byte identifier, no token and nothing that decrypts; 1200 bytes. *)
Definition ex_initial : dgram := mkD ex_addr ex_addr ([192; 0; 0; 0; 1; 8; 1; 2; 3; 4; 5; 6; 7; 8; 0; 0; 68; 158] ++ repeat 0 1182).
Example ex_accept : exists s, ex_run Never (s_new idle) [([ex_initial], 10)] = Some (s, [(ex_initial, 10, FAccepted None)], [CNone]) /\ s_conns idle s = [[7; 7; 7; 7]].
Proof. eexists. split; vm_compute; reflexivity. Qed.
Example ex_retry : exists s a, ex_run Always (s_new idle) [([ex_initial; ex_initial], 10); ([], 20)] = Some (s, [(ex_initial, 10, FRetry a); (ex_initial, 10, FRetry a)], [CSend [a]; CSend [a]]) /\ s_conns idle s = [] /\ s_saved idle s = [].
Proof. do 2 eexists. split; [|split]; vm_compute; reflexivity. Qed.
(** A packet that reaches a connection by the identifier it knows. *)
Example ex_routed : exists s, ex_run Never (s_new idle) [([ex_initial], 10); ([mkD ex_addr ex_addr ([64; 7; 7; 7; 7] ++ repeat 0 30)], 11)] =
  Some (s, [(ex_initial, 10, FAccepted None); (mkD ex_addr ex_addr ([64; 7; 7; 7; 7] ++ repeat 0 30), 11, FRouted 0)], [CNone; CNone]).
Proof. eexists. vm_compute. reflexivity. Qed.
Lemma repeat_snoc {A} (x : A) n : repeat x n ++ [x] = repeat x (S n).
Proof. induction n; [reflexivity|]. cbn [repeat app]. rewrite IHn. reflexivity. Qed.
(** *** Refuted: "a repeated Initial packet makes no second connection, and what an unauthenticated packet created does not
    stay for ever".  Repeating one datagram n times leaves n connections, none of which ever asks to be called. *)
Theorem server_forgets_refuted : forall n, exists s log,
  ex_run Never (s_new idle) (repeat ([ex_initial], 10) n) = Some (s, log, repeat CNone n) /\ s_conns idle s = repeat [7; 7; 7; 7] n /\
  forall times, exists s' , ex_run Never s (map (fun t => ([], t)) times) = Some (s', [], map (fun _ => CNone) times) /\ s_conns idle s' = repeat [7; 7; 7; 7] n.
Proof.
  assert (F : forall k i, find_conn idle i_valid i (repeat [7; 7; 7; 7] k) [1; 2; 3; 4; 5; 6; 7; 8] = None) by (induction k; intros i; [reflexivity|exact (IHk (S i))]).
  assert (O : forall k t, outputs idle i_output (repeat [7; 7; 7; 7] k) t None = (repeat [7; 7; 7; 7] k, CNone)).
  { induction k; intros t; [reflexivity|]. cbn [repeat outputs]. cbn [i_output]. rewrite IHk. reflexivity. }
  assert (K : forall k, filter (fun c => negb (i_closed c)) (repeat [7; 7; 7; 7] k) = repeat [7; 7; 7; 7] k) by (induction k; [reflexivity|exact (f_equal (cons [7; 7; 7; 7]) IHk)]).
  assert (D : exists u, decode_pkt (fun _ => 16%nat) ex_cid true (d_data ex_initial) = Some (POk u []) /\ u_dcid u = [1; 2; 3; 4; 5; 6; 7; 8] /\ u_type u = PInitial /\ u_ver u = Some 1 /\ u_token u = [] /\ u_scid u = Some []).
  { eexists. split; [vm_compute; reflexivity|]. splits; reflexivity. }
  destruct D as (u & D & D1 & D2 & D3 & D4 & D5).
  assert (S1 : forall k, s_one idle i_valid i_input i_first i_new (fun _ => 16%nat) ex_seal ex_cid [Version1] (fun _ _ => None) Never 0 (fun _ _ _ => Some [1; 2; 3]) (fun _ _ => Some [5; 5; 5; 5]) (fun _ _ => 0) (repeat [7; 7; 7; 7] k) ex_initial 10 = (repeat [7; 7; 7; 7] (S k), FAccepted None, None)).
  { intros k. unfold s_one. rewrite D, D1, F, D2, D3, D4, D5. change (version_of_wire 1) with (Some Version1). change (memv Version1 [Version1]) with true. cbn [negb]. change (lenN (d_data ex_initial) <? MIN_INITIAL) with false. unfold handle_initial, accept. cbn [i_token i_dcid i_scid i_version validate i_new i_first]. rewrite repeat_snoc. reflexivity. }
  assert (G : forall n k s0, s_conns idle s0 = repeat [7; 7; 7; 7] k -> s_saved idle s0 = [] -> exists s log, ex_run Never s0 (repeat ([ex_initial], 10) n) = Some (s, log, repeat CNone n) /\ s_conns idle s = repeat [7; 7; 7; 7] (k + n) /\ s_saved idle s = []).
  { induction n as [|n IH]; intros k [cs sv] E1 E2; cbn [s_conns s_saved] in E1, E2; subst cs sv; [exists (mkS idle (repeat [7; 7; 7; 7] k) []), []; rewrite Nat.add_0_r; auto|].
    unfold ex_run. cbn [repeat s_run]. unfold process. cbn [s_conns s_saved from_saved s_input]. rewrite S1. cbn [s_saved s_conns map]. rewrite O. rewrite K.
    destruct (IH (S k) (mkS idle (repeat [7; 7; 7; 7] (S k)) []) eq_refl eq_refl) as (s & log & R & H1 & H2). unfold ex_run in R. rewrite R. do 2 eexists. split; [reflexivity|]. rewrite H1. split; [f_equal; lia|exact H2]. }
  intros n. destruct (G n 0%nat (s_new idle) eq_refl eq_refl) as (s & log & R & H1 & H2). cbn [Nat.add] in H1. exists s, log. split; [exact R|]. split; [exact H1|].
  clear R. intros times. revert s H1 H2. induction times as [|t times IH]; intros [cs sv] H1 H2; cbn [s_conns s_saved] in H1, H2; subst cs sv; [eexists; split; reflexivity|].
  unfold ex_run. cbn [map s_run]. unfold process. cbn [s_conns s_saved from_saved s_input map]. rewrite O, K. destruct (IH (mkS idle (repeat [7; 7; 7; 7] n) []) eq_refl eq_refl) as (s' & R & H). unfold ex_run in R. rewrite R. eexists. split; [reflexivity|exact H].
Qed.
Print Assumptions server_in_order.
Print Assumptions server_progress.
Print Assumptions server_routes.
Print Assumptions server_routes_known.
Print Assumptions server_leaves_others.
Print Assumptions server_accepts_only.
Print Assumptions server_validates.
Print Assumptions server_creates.
Print Assumptions server_retries.
Print Assumptions server_answers.
Print Assumptions server_silent.
Print Assumptions server_connections.
Print Assumptions server_wakes.
Print Assumptions server_forgets_refuted.
