(** HTTP/3 frames and settings. *)
From Verif Require Import Base Lib CodecModel Reader HfModel HfSpec HfProofs HfProofs2.
Open Scope N_scope.
Open Scope list_scope.
Import ListNotations.

(** C90: whatever the runs in which the bytes of a stream arrive, and whenever the reader is asked, the frames it returns
    are those the bytes spell, in order: unknown types skipped, refused types and bad payloads errors at their place, a
    stream that ends inside a frame an error; a question that returns nothing has used every byte; and no panic. *)
Theorem frames_any_runs : forall prio es, (forall b, In (Arrive b) es -> bytes_ok b) ->
  let g := h3 prio read_settings in
  exists l, l_run (HFRAME prio) l_init es = Some l /\
    match l_status l with
    | Reading => (forall fs st, frames g (l_all l) fs st -> exists more, fs = l_out l ++ more) /\
        (l_idle l = true -> frames g (l_all l) (l_out l) Nothing \/ frames g (l_all l) (l_out l) Partial)
    | Failed e => (forall x, frames g (l_all l ++ x) (l_out l) (Fail e)) \/
        (e = HttpFrame /\ s_fin (l_source l) = true /\ frames g (l_all l) (l_out l) Partial)
    | Ended => s_fin (l_source l) = true /\ frames g (l_all l) (l_out l) Nothing
    end.
Proof. intros prio es Ob g. exact (life_ok _ _ (HFRAME_agrees prio) es Ob). Qed.
(** Any bytes spell one sequence of frames and one end. *)
Theorem frames_unique : forall F (g : N -> kind F) bs, exists fs st, frames g bs fs st /\ forall fs' st', frames g bs fs' st' -> fs' = fs /\ st' = st.
Proof.
  intros F g bs. destruct (frames_total g (S (length bs)) bs ltac:(lia)) as (fs & st & H). exists fs, st. split; [exact H|].
  intros fs' st' H'. exact (frames_det g _ _ _ H' _ _ H).
Qed.
(** Capsules and the frames of a WebTransport session are read in the same way. *)
Theorem capsules_any_runs : forall es, (forall b, In (Arrive b) es -> bytes_ok b) ->
  exists l, l_run CAPSULE l_init es = Some l /\
    match l_status l with
    | Reading => (forall fs st, frames capsules (l_all l) fs st -> exists more, fs = l_out l ++ more) /\
        (l_idle l = true -> frames capsules (l_all l) (l_out l) Nothing \/ frames capsules (l_all l) (l_out l) Partial)
    | Failed e => (forall x, frames capsules (l_all l ++ x) (l_out l) (Fail e)) \/
        (e = HttpFrame /\ s_fin (l_source l) = true /\ frames capsules (l_all l) (l_out l) Partial)
    | Ended => s_fin (l_source l) = true /\ frames capsules (l_all l) (l_out l) Nothing
    end.
Proof. intros es Ob. exact (life_ok _ _ CAPSULE_agrees es Ob). Qed.
Theorem session_frames_any_runs : forall utf8 es, (forall b, In (Arrive b) es -> bytes_ok b) ->
  exists l, l_run (WTFRAME utf8) l_init es = Some l /\
    match l_status l with
    | Reading => (forall fs st, frames (wt utf8) (l_all l) fs st -> exists more, fs = l_out l ++ more) /\
        (l_idle l = true -> frames (wt utf8) (l_all l) (l_out l) Nothing \/ frames (wt utf8) (l_all l) (l_out l) Partial)
    | Failed e => (forall x, frames (wt utf8) (l_all l ++ x) (l_out l) (Fail e)) \/
        (e = HttpFrame /\ s_fin (l_source l) = true /\ frames (wt utf8) (l_all l) (l_out l) Partial)
    | Ended => s_fin (l_source l) = true /\ frames (wt utf8) (l_all l) (l_out l) Nothing
    end.
Proof. intros utf8 es Ob. exact (life_ok _ _ (WTFRAME_agrees utf8) es Ob). Qed.
(** What is kept of an unfinished frame, and what is still awaited of it, never exceed its type's limit: 384 KiB at most. *)
Theorem frame_memory_bounded : forall prio es l b, (forall b, In (Arrive b) es -> bytes_ok b) -> l_run (HFRAME prio) l_init es = Some l ->
  l_status l = Reading -> r_state (l_reader l) = GetData b -> lenN (ib_v b) + N.of_nat (ib_remaining b) <= 384 * 1024.
Proof.
  intros prio es l b Ob E St Es. destruct (life_buffer _ _ (HFRAME_agrees prio) es l Ob E St b Es) as (lim & parse & G & L).
  assert (lim <= 384 * 1024); [|lia]. clear -G. unfold h3 in G.
  repeat match type of G with (if ?c then _ else _) = _ => destruct c; [try discriminate G; injection G as <- _; lia|] end. discriminate G.
Qed.
(** What this side writes, a sequence of frames with greasing among them, is what such a reader returns, without the grease,
    however it is cut; settings by their values. *)
Theorem frames_written_are_read : forall prio l w es lf, h_write l = Some w -> Forall (fun p => fits prio (snd p)) l ->
  (forall b, In (Arrive b) es -> bytes_ok b) -> l_run (HFRAME prio) l_init es = Some lf -> l_all lf = w ->
  (forall e, l_status lf <> Failed e) /\
  (l_idle lf = true \/ l_status lf = Ended -> Forall2 same (filter not_grease (map snd l)) (l_out lf)).
Proof.
  intros prio l w es lf E K Ob R Ew. destruct (written_frames prio l w E K) as (fs & Hf & Hs).
  destruct (life_ok _ _ (HFRAME_agrees prio) es Ob) as (l' & R' & I). rewrite R in R'. injection R' as <-. rewrite Ew in I.
  destruct (l_status lf) eqn:St.
  - split; [discriminate|]. intros [Hi|H]; [|discriminate H]. destruct I as [_ I]. destruct (I Hi) as [H|H]; destruct (frames_det _ _ _ _ H _ _ Hf) as [-> H']; auto; discriminate H'.
  - exfalso. destruct I as [I|(_ & _ & I)].
    + specialize (I []). rewrite app_nil_r in I. destruct (frames_det _ _ _ _ I _ _ Hf) as [_ H']. discriminate H'.
    + destruct (frames_det _ _ _ _ I _ _ Hf) as [_ H']. discriminate H'.
  - split; [discriminate|]. intros _. destruct I as [_ I]. destruct (frames_det _ _ _ _ I _ _ Hf) as [-> _]. exact Hs.
Qed.
(** Settings, a skipped frame and GOAWAY, cut in the middle of numbers. *)
Definition ex_prio (l : list N) : option priority := if is_nil l then Some (mkPr 3 false) else None.
Definition ex_frames : list (N * list N * hframe) :=
  [(0, [], FSettings [(MaxTableCapacity, 4096); (EnableConnect, 1)]); (12345678901234, [2; 7; 8; 9; 10; 11; 12; 13], FGrease); (0, [], FGoaway 400); (0, [], FHeaders [1; 2; 3])].
Example frames_written_are_read_example :
  match h_write ex_frames with
  | Some w =>
      match l_run (HFRAME ex_prio) l_init [Arrive (firstn 2 w); Receive; Arrive (firstn 3 (skipn 2 w)); Receive; Receive; Arrive (skipn 5 w); Receive; Receive; Finish; Receive] with
      | Some l => l_out l = [FSettings [(MaxTableCapacity, 4096); (EnableConnect, 1)]; FGoaway 400; FHeaders [1; 2; 3]] /\ l_status l = Ended /\ l_all l = w
      | None => False
      end
  | None => False
  end.
Proof. vm_compute. auto. Qed.
Example frames_refused_example :
  match l_run (HFRAME ex_prio) l_init [Arrive [7; 1; 4; 2]; Receive; Receive], l_run (HFRAME ex_prio) l_init [Arrive [7; 1; 4; 1]; Finish; Receive; Receive], l_run (HFRAME ex_prio) l_init [Arrive [7; 9]; Receive] with
  | Some a, Some b, Some c => l_out a = [FGoaway 4] /\ l_status a = Failed HttpFrameUnexpected /\ l_status b = Failed HttpFrame /\ l_status c = Failed HttpExcessiveLoad
  | _, _, _ => False
  end.
Proof. vm_compute. auto. Qed.

(** C91: a SETTINGS frame is its identifiers and values: refused with a settings error exactly if one is reserved or a switch
    is neither zero nor one, with a frame error if it stops inside a pair, and otherwise every setting has the first value
    listed for it, or its default. *)
Theorem settings_meaning : forall p, exists ps tl, pairs p ps tl /\
  ((exists q, In q ps /\ bad_pair q) -> read_settings p = inr HttpSettings) /\
  ((forall q, In q ps -> ~ bad_pair q) ->
     (tl = [] -> exists s, read_settings p = inl s /\ forall k, s_get s k = value_of ps k) /\
     (tl <> [] -> read_settings p = inr HttpFrame \/ (read_settings p = inr HttpSettings /\ exists t r, rd_varint tl = Some (t, r) /\ reserved_setting t))).
Proof.
  intros p. destruct (pairs_total (S (length p)) p ltac:(lia)) as (ps & tl & P). exists ps, tl. split; [exact P|]. destruct (read_settings_spec p ps tl P) as [R1 R2].
  split; [exact R1|]. intros H. destruct (R2 H) as [R3 R4]. split; [exact R3|]. intros Hn. rewrite (R4 Hn). unfold tail_reserved.
  destruct (rd_varint tl) as [[t r]|]; [|auto]. destruct (mem t RESERVED_SETTINGS) eqn:M; [|auto]. right. split; [reflexivity|]. exists t, r. split; [reflexivity|apply mem_reserved; exact M].
Qed.
(** The settings this side sends are the ones its parameters give, for whoever reads them. *)
Theorem settings_sent : forall c w, s_encode (settings_of_params c) = Some w -> exists s, read_settings w = inl s /\
  s_get s MaxTableCapacity = p_table c /\ s_get s BlockedStreams = p_blocked c /\ s_get s EnableWebTransport = b2n (p_wt c) /\
  s_get s EnableH3Datagram = b2n (p_datagram c) /\ s_get s EnableConnect = b2n (p_connect c) /\ s_get s MaxHeaderListSize = 2 ^ 62.
Proof.
  intros c w E. destruct (settings_back (settings_of_params c) w) as (s & R & G); [|exact E|].
  - split; [cbn; repeat constructor; cbn; intuition discriminate|]. unfold settings_of_params, b2n. destruct (p_wt c), (p_datagram c), (p_connect c); repeat constructor; cbn; intros; try discriminate; lia.
  - exists s. rewrite !G. split; [exact R|]. splits; reflexivity.
Qed.
Example settings_sent_example : match s_encode (settings_of_params (mkP 65536 20 true true true)) with Some w => read_settings w = inl [(MaxTableCapacity, 65536); (BlockedStreams, 20); (EnableWebTransport, 1); (EnableH3Datagram, 1); (EnableConnect, 1)] | None => False end.
Proof. vm_compute. reflexivity. Qed.
(** A server takes early data under the settings it once sent exactly if none of those saved has been reduced. *)
Theorem early_data_settings : forall old new token, zrtt_save old = Some token ->
  (zrtt_check new token = ZAccept <-> p_table old <= p_table new /\ p_blocked old <= p_blocked new /\ (p_wt old = true -> p_wt new = true) /\ (p_datagram old = true -> p_datagram new = true)) /\
  (zrtt_check new token = ZAccept \/ zrtt_check new token = ZReject).
Proof.
  intros old new token E. rewrite (zrtt_back _ _ _ E). destruct (p_wt old), (p_wt new), (p_datagram old), (p_datagram new); cbn [implb];
    rewrite ?Bool.andb_true_r, ?Bool.andb_false_r; destruct (N.leb_spec (p_table old) (p_table new)), (N.leb_spec (p_blocked old) (p_blocked new)); cbn [andb]; (split; [split; intros; try discriminate; splits; auto; try lia; try (intuition (try lia; try discriminate))|auto]).
Qed.
(** Any ticket that is accepted: nothing in it is above what is offered now. *)
Theorem early_data_any_ticket : forall new token r ps, rd_varint token = Some (1, r) -> pairs r ps [] -> zrtt_check new token = ZAccept ->
  value_of ps MaxTableCapacity <= p_table new /\ value_of ps BlockedStreams <= p_blocked new /\
  (value_of ps EnableWebTransport = 1 -> p_wt new = true) /\ (value_of ps EnableH3Datagram = 1 -> p_datagram new = true) /\ (value_of ps EnableConnect = 1 -> p_connect new = true).
Proof. exact zrtt_accept_gen. Qed.
(** Not all of what was sent is saved: a server that has switched extended CONNECT off still takes early data from a client
    told it was on. *)
Theorem early_data_connect_refuted : exists old new token, zrtt_save old = Some token /\ p_connect old = true /\ p_connect new = false /\ zrtt_check new token = ZAccept.
Proof. exists (mkP 100 10 false false true), (mkP 100 10 false false false), [1; 1; 64; 100; 7; 10]. vm_compute. auto. Qed.
Example early_data_settings_example : match zrtt_save (mkP 4096 16 true false false) with
  | Some t => zrtt_check (mkP 4096 16 true true false) t = ZAccept /\ zrtt_check (mkP 4095 16 true true false) t = ZReject /\ zrtt_check (mkP 4096 16 false true false) t = ZReject | None => False end.
Proof. vm_compute. auto. Qed.

Print Assumptions frames_any_runs.
Print Assumptions frames_unique.
Print Assumptions capsules_any_runs.
Print Assumptions session_frames_any_runs.
Print Assumptions frame_memory_bounded.
Print Assumptions frames_written_are_read.
Print Assumptions settings_meaning.
Print Assumptions settings_sent.
Print Assumptions early_data_settings.
Print Assumptions early_data_any_ticket.
Print Assumptions early_data_connect_refuted.
