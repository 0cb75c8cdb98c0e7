From Coq Require Import String Ascii.
From Verif Require Import Base Lib HhModel HhSpec HhProofs.
Open Scope N_scope.
Open Scope list_scope.
Import ListNotations.

(** C92 (1): the check passes exactly the well-formed lists of headers. *)
Theorem headers_checked : forall hs mt, headers_valid hs mt = true <-> wellformed mt hs.
Proof. exact headers_valid_iff. Qed.
Print Assumptions headers_checked.
Example headers_checked_case :
  wellformed Request [(str ":method", str "GET"); (str ":scheme", str "https"); (str ":path", str "/"); (str "te", str "trailers")] /\
  ~ wellformed Request [(str ":method", str "GET"); (str ":scheme", str "https"); (str ":path", str "/"); (str "te", str "gzip")] /\
  ~ wellformed Request [(str ":method", str "GET"); (str ":scheme", str "https"); (str "a", str "b"); (str ":path", str "/")] /\
  ~ wellformed Response [(str ":status", str "200"); (str ":status", str "200")] /\
  ~ wellformed Response [(str ":status", str "200"); (str "X", str "1")].
Proof. rewrite <- !headers_checked. repeat split; try (vm_compute; reflexivity); vm_compute; discriminate. Qed.

(** C92 (2): what an application is handed. A response begins with its status, other than 101; it is interim exactly from 100 to
    199; nothing that belongs to one connection is handed on; no name or value can end a line. *)
Theorem headers_handed_on : forall mt hs hs' interim session, accept mt hs = Some (hs', interim, session) ->
  wellformed mt hs /\
  (forall h, In h hs' <-> In h hs /\ (mt = Response -> ~ In (fst h) hop_by_hop)) /\
  (forall h b, In h hs' -> In b (fst h) \/ In b (snd h) -> ~ In b [0; 0x0a; 0x0d]) /\
  (mt = Response -> session = false /\ exists v rest code, hs = (str ":status", v) :: rest /\ code_of v code /\ code <> 101 /\ (interim = true <-> 100 <= code <= 199)) /\
  (mt = Request -> interim = false /\ hs' = hs /\ (session = true <-> In (str ":method", str "CONNECT") hs /\ has hs ":protocol")).
Proof.
  intros mt hs hs' interim session H. unfold accept in H.
  assert (HB : forall n, is n "connection" || is n "host" || is n "keep-alive" || is n "proxy-connection" || is n "te" || is n "transfer-encoding" || is n "upgrade" = true <-> In n hop_by_hop).
  { intros n. unfold hop_by_hop, connection_specific. repeat rewrite Bool.orb_true_iff. repeat rewrite is_eq. cbn [app In]. intuition (subst; auto 10). }
  assert (Fine : forall mt2 hs2 h b, wellformed mt2 hs2 -> In h hs2 -> In b (fst h) \/ In b (snd h) -> ~ In b [0; 0x0a; 0x0d]).
  { intros mt2 hs2 h b [(ps & rs & -> & K & _ & FN) FV _ _ _] Hh [Hb|Hb]; [|exact (FV h Hh b Hb)]. apply in_app_iff in Hh as [Hh|Hh].
    - destruct (known_colon mt2 (fst h) (K h Hh)) as [Ec Eb]. apply bad_name_spec in Eb. destruct (fst h) as [|c t]; [discriminate|]. cbn in Ec. apply N.eqb_eq in Ec. subst c.
      cbn in Hb. destruct Hb as [<-|Hb]; [cbn; intuition discriminate|]. destruct (Eb b Hb) as [_ X]. cbn in *. tauto.
    - destruct (FN h Hh b Hb) as [_ X]. cbn in *. tauto. }
  destruct mt.
  - destruct (headers_valid hs Request) eqn:E; [|discriminate]. injection H as <- <- <-. apply headers_checked in E. splits; auto.
    + intros h. split; [intros Z; split; [exact Z|discriminate]|tauto].
    + intros h b Hh. exact (Fine Request hs h b E Hh).
    + discriminate.
    + intros _. splits; auto. rewrite Bool.andb_true_iff. unfold contains, finds. rewrite !existsb_exists. split.
      * intros (([n v] & A & B) & ([n2 v2] & C & D)). cbn [fst snd] in *. apply Bool.andb_true_iff in B as [B1 B2]. apply is_eq in B1, B2, D. subst. split; [exact A|]. exists v2. exact C.
      * intros (A & v & B). split; [exists (str ":method", str "CONNECT")|exists (str ":protocol", v)]; (split; [assumption|]); reflexivity.
  - destruct (is_interim hs) as [i|] eqn:Ei; [|discriminate]. destruct (headers_valid hs Response) eqn:E; [|discriminate]. injection H as <- <- <-. apply headers_checked in E. splits; auto.
    + intros h. rewrite filter_In. unfold allowed_for_response. rewrite Bool.negb_true_iff, <- Bool.not_true_iff_false, HB. intuition.
    + intros h b Hh. apply filter_In in Hh as [Hh _]. exact (Fine Response hs h b E Hh).
    + intros _. split; [reflexivity|]. unfold is_interim in Ei. destruct hs as [|[n v] rest]; [discriminate|]. cbn [fst snd] in Ei. destruct (is n ":status") eqn:En; [|discriminate].
      apply is_eq in En. subst n. destruct (parse_u16 v) as [code|] eqn:Ep; [|discriminate]. destruct (N.eqb_spec code 101); [discriminate|]. injection Ei as <-.
      exists v, rest, code. apply parse_spec in Ep. splits; auto. rewrite Bool.andb_true_iff, N.leb_le, N.ltb_lt. lia.
    + discriminate.
Qed.
Print Assumptions headers_handed_on.
Example headers_handed_on_case :
  accept Response [(str ":status", str "103"); (str "host", str "x"); (str "link", str "y")] = Some ([(str ":status", str "103"); (str "link", str "y")], true, false) /\
  accept Response [(str ":status", str "101")] = None /\ accept Response [(str "a", str "b"); (str ":status", str "200")] = None.
Proof. repeat split; vm_compute; reflexivity. Qed.

(** C92 (3): nothing well-formed is refused: a response with three digits other than 101 in front is accepted exactly if well-formed. *)
Theorem good_responses_accepted : forall v rest, three_digits v -> v <> str "101" ->
  (wellformed Response ((str ":status", v) :: rest) <-> accept Response ((str ":status", v) :: rest) <> None).
Proof.
  intros v rest T N. rewrite <- headers_checked. unfold accept. cbn [is_interim fst snd]. rewrite is_refl. destruct (three_code v T) as [C L].
  apply parse_spec in C. rewrite C. destruct (N.eqb_spec (decimal v) 101) as [E|E].
  - exfalso. apply N. destruct T as [Lv F]. destruct v as [|a [|b [|c [|? ?]]]]; try discriminate. inversion F as [|? ? A F1]; subst. inversion F1 as [|? ? B F2]; subst. inversion F2 as [|? ? D _]; subst.
    unfold digit, decimal in *. cbn [fold_left] in E. assert (a = 0x31 /\ b = 0x30 /\ c = 0x31) as (-> & -> & ->) by lia. reflexivity.
  - destruct (headers_valid _ _); split; congruence.
Qed.
Print Assumptions good_responses_accepted.
Example good_responses_accepted_case : three_digits (str "404") /\ str "404" <> str "101" /\ wellformed Response [(str ":status", str "404")].
Proof.
  split; [split; [reflexivity|]|split; [vm_compute; discriminate|apply headers_checked; vm_compute; reflexivity]].
  repeat constructor; vm_compute; discriminate.
Qed.

(** C92 (4): where this is wider than the RFCs: an ordinary CONNECT with a scheme is accepted; so are status codes that are not three
    digits; and a name may hold bytes that are no token, such as a space. *)
Theorem bare_connect_refuted : exists hs, wellformed Request hs /\ ~ connect_bare hs.
Proof.
  exists [(str ":method", str "CONNECT"); (str ":scheme", str "https"); (str ":authority", str "a"); (str ":path", str "/")].
  split; [apply headers_checked; vm_compute; reflexivity|]. intros H. destruct H as [H _].
  - left. reflexivity.
  - intros [v I]. cbn in I. repeat (destruct I as [I|I]; [discriminate|]). contradiction.
  - apply H. exists (str "https"). right. left. reflexivity.
Qed.
Print Assumptions bare_connect_refuted.
Theorem three_digit_status_refuted : exists v hs, ~ three_digits v /\ accept Response [(str ":status", v)] = Some (hs, false, false) .
Proof. exists (str "+00200"), [(str ":status", str "+00200")]. split; [intros [L _]; discriminate|]. vm_compute. reflexivity. Qed.
Print Assumptions three_digit_status_refuted.
(** C92 (5): trailers given to the sender are refused exactly if one of them is a pseudo-header field; nothing else is checked. *)
Theorem trailers_checked : forall hs, trailers_valid hs = true <-> forall n v, In (0x3a :: n, v) hs -> False.
Proof.
  intros hs. unfold trailers_valid. rewrite forallb_forall. split.
  - intros H n v I. specialize (H _ I). discriminate.
  - intros H [[|c n] v] I; [reflexivity|]. cbn. apply Bool.negb_true_iff, N.eqb_neq. intros ->. eauto.
Qed.
Print Assumptions trailers_checked.
