(** QPACK: header blocks, encoders, decoders. *)
From Verif Require Import Base Lib QpTables QiModel QiSpec QiProofs QiProofs2 QbModel QbSpec QbProofs QbProofs2 QeModel QeProofs QeProofs2 QeProofs3 QjModel QjSpec QjProofs QjProofs2 QjProofs3 QdProofs.
Open Scope N_scope.
Open Scope list_scope.
Import ListNotations.

(** ** C86: an encoder, whatever its peer sends
    (neqo-qpack/src/encoder.rs) *)
(** It never panics; its table holds the last insertions, within the capacity and the encoder's own limit; an entry that a header block not yet acknowledged refers to is in the table;
    and at most as many streams as the peer allows wait for something it has not acknowledged. *)
Theorem encoder_any_peer : forall max_table tracked huff ops,
  Forall (eop_ok huff) ops -> grows 0 ops -> eweights ops < 2 ^ 62 ->
  match erun (enc_new max_table tracked huff) ops with
  | Good e =>
      (exists H, lenN H = t_base (n_table e) /\ holds H (n_table e)) /\
      t_cap (n_table e) <= max_table /\
      (forall s bl b i, ub_get s (n_unacked e) = Some bl -> In b bl -> In i b -> exists x, In x (t_dyn (n_table e)) /\ x_base x = i) /\
      lenN (filter (fun p => existsb (existsb (fun i => t_acked (n_table e) <=? i)) (snd p)) (n_unacked e)) <= n_maxb e
  | Bad => True
  | Panic => False
  end.
Proof.
  intros max_table tracked huff ops F G W. pose proof (erun_any ops 0 [] (enc_new max_table tracked huff) (enew_inv _ _ _) ltac:(rewrite lenN_nil; lia) W F G ltac:(cbn; lia) ltac:(intros c C; discriminate)) as Q.
  destruct (erun _ ops) as [e| |]; auto. destruct Q as (H & V & CA). splits; auto.
  - exists H. split; [symmetry; apply V | apply t_ok_holds, V].
  - intros s bl b i GT IB II. pose proof (proj2 (ev_refs _ _ _ V)) as R. cbn [List.app] in R. rewrite Forall_forall in R. assert (IU : In b (ublocks (n_unacked e))) by (eapply in_ublocks; [apply ub_get_in; eauto | auto]). specialize (R b IU). rewrite Forall_forall in R. destruct (R i II) as (P1 & P2).
    destruct (ev_t _ _ _ V) as (WN & _). unfold oldest in P1. pose proof (win_len _ _ _ WN) as WL. unfold lenN in *. destruct (win_nth _ _ _ (N.to_nat (t_base (n_table e) - 1 - i)) WN) as (x & X1 & X2 & _); [lia|]. exists x. split; [eapply nth_error_In; eauto | lia].
  - pose proof (ev_cnt _ _ _ V) as C1. pose proof (ev_cntb _ _ _ V) as C2. unfold nblocking, blocks_on in C1. lia.
Qed.
Print Assumptions encoder_any_peer.

(** ** C87: the required insert count
    (neqo-qpack/src/header_block.rs) *)
(** Written modulo twice the number of entries, it is read back, by any decoder whose count of insertions is within that number of it. *)
Theorem insert_count_read_back : forall req M total, 0 < req -> 0 < M -> total < req + M -> req <= total + M -> total < 2 ^ 62 -> M < 2 ^ 60 ->
  calc_req (req mod (2 * M) + 1) M total = Good req.
Proof. exact calc_req_trip. Qed.
(** And nothing else is: what is read is in that range, and is written that way; no input overflows. *)
Theorem insert_count_only : forall c M total, total < 2 ^ 62 -> M < 2 ^ 60 ->
  match calc_req c M total with
  | Good r => (c = 0 /\ r = 0) \/ (c = r mod (2 * M) + 1 /\ 0 < M /\ 0 < r /\ total < r + M /\ r <= total + M)
  | Bad => True
  | Panic => False
  end.
Proof. exact calc_req_ok. Qed.
Example insert_count_wraps : calc_req (1000005 mod 8 + 1) 4 1000003 = Good 1000005 /\ calc_req 9 4 3 = Bad /\ calc_req (1 mod 8 + 1) 4 4 = Good 1. Proof. vm_compute. auto. Qed.
Print Assumptions insert_count_read_back.
Print Assumptions insert_count_only.

(** ** C88: an encoder and a decoder
    (neqo-qpack/src/encoder.rs, decoder.rs, table.rs, header_block.rs, reader.rs) *)
(** Whatever is encoded, whenever bytes of the two streams and header blocks arrive, however writes fail, streams are given up or capacities change:
    no error and no panic; every list of headers given out is the one that was encoded; no more streams wait than the decoder allows. *)
Theorem headers_arrive : forall enc_table tracked dec_table dec_blocked huff ops,
  dec_table <= enc_table -> dec_table < 2 ^ 30 -> dec_blocked < 65536 -> Forall (jop_ok huff) ops -> jweights ops < 2 ^ 62 ->
  exists j outs, jrun (jinit enc_table tracked dec_table dec_blocked huff) ops = Good (j, outs) /\
    Forall faithful outs /\ lenN (d_blocked (j_dec j)) <= dec_blocked /\ t_used (n_table (j_enc j)) <= dec_table.
Proof.
  intros et tr S B huff ops L S30 B16 F W. destruct (run_good huff S B S30 B16 ops 0 _ (init_good huff S B S30 B16 et tr L) F W) as (j & xs & E & G & O). exists j, xs. destruct (good_limits huff S B S30 B16 _ _ G) as (A1 & A2 & A3). auto.
Qed.
(** Once the bytes of the encoder stream have arrived, the first header block of any stream not given up is decoded. *)
Theorem headers_do_not_wait : forall enc_table tracked dec_table dec_blocked huff ops j outs,
  dec_table <= enc_table -> dec_table < 2 ^ 30 -> dec_blocked < 65536 -> Forall (jop_ok huff) ops -> jweights ops < 2 ^ 62 ->
  jrun (jinit enc_table tracked dec_table dec_blocked huff) ops = Good (j, outs) ->
  exists j1, jstep j (JDown (length (j_down j))) = Good (j1, JNone) /\
    forall s b h, ~ In s (j_dead j) -> first_block s (j_blocks j) = Some (b, h) -> exists j2, jstep j1 (JBlock s) = Good (j2, JGot s h h).
Proof.
  intros et tr S B huff ops j outs L S30 B16 F W E. destruct (run_good huff S B S30 B16 ops 0 _ (init_good huff S B S30 B16 et tr L) F W) as (j' & xs & E' & G & O). rewrite E in E'. inversion E'. subst. destruct (down_all huff S B S30 B16 _ _ G W) as (j1 & A1 & _ & _ & A2). eauto.
Qed.
(** Once every header block is decoded, and the decoder's bytes have arrived, the encoder holds no reference: every entry may be evicted again. *)
Theorem references_released : forall enc_table tracked dec_table dec_blocked huff ops j outs,
  dec_table <= enc_table -> dec_table < 2 ^ 30 -> dec_blocked < 65536 -> Forall (jop_ok huff) ops -> jweights ops < 2 ^ 62 ->
  jrun (jinit enc_table tracked dec_table dec_blocked huff) ops = Good (j, outs) ->
  j_blocks j = [] -> j_dead j = [] -> d_out (j_dec j) = [] ->
  exists j1, jstep j (JUp (length (j_up j))) = Good (j1, JNone) /\ n_unacked (j_enc j1) = [] /\ Forall (fun x => x_refs x = 0) (t_dyn (n_table (j_enc j1))).
Proof.
  intros et tr S B huff ops j outs L S30 B16 F W E BE DE OE. destruct (run_good huff S B S30 B16 ops 0 _ (init_good huff S B S30 B16 et tr L) F W) as (j' & xs & E' & G & O). rewrite E in E'. inversion E'. subst. destruct (quiet huff S B S30 B16 _ _ G W BE DE OE) as (j1 & A1 & A2 & A3 & _). eauto.
Qed.
(** A stream given up, when the decoder's table has a capacity: once that has arrived, the encoder holds no reference for it. *)
Theorem cancellation_releases : forall enc_table tracked dec_table dec_blocked huff ops j outs s n,
  dec_table <= enc_table -> dec_table < 2 ^ 30 -> dec_blocked < 65536 -> Forall (jop_ok huff) ops -> jweights ops < 2 ^ 62 -> s < 2 ^ 62 ->
  jrun (jinit enc_table tracked dec_table dec_blocked huff) ops = Good (j, outs) -> 0 < t_cap (d_table (j_dec j)) ->
  exists j1 j2, jstep j (JCancel s) = Good (j1, JNone) /\ jstep j1 (JSend n) = Good (j2, JNone) /\
    (d_out (j_dec j2) = [] -> exists j3, jstep j2 (JUp (length (j_up j2))) = Good (j3, JNone) /\ ub_get s (n_unacked (j_enc j3)) = None).
Proof.
  intros et tr S B huff ops j outs s n L S30 B16 F W SB E CP. destruct (run_good huff S B S30 B16 ops 0 _ (init_good huff S B S30 B16 et tr L) F W) as (j' & xs & E' & G & O). rewrite E in E'. inversion E'. subst. apply (cancelled huff S B S30 B16 _ _ s n G W SB CP).
Qed.
Print Assumptions headers_arrive.
Print Assumptions headers_do_not_wait.
Print Assumptions references_released.
Print Assumptions cancellation_releases.

(** A run: two headers inserted, one block waiting, then given out, acknowledged. *)
Definition name1 : list N := [120; 45; 97]. Definition value1 : list N := [49; 50].
Definition two : list header := [(name1, value1); ([58; 112; 97; 116; 104], [47; 97])].
Definition some_run : list jop :=
  [JSettings; JOpenEncoder; JOpenDecoder; JUpdates [true; true]; JEncode 0 two [true; true; true]; JBlock 0; JDown 5; JBlock 0; JDown 1000; JBlock 0; JSend 1000; JEncode 4 two [true; true; true]; JUp 1000; JBlock 4; JSend 1000; JUp 1000].
Example some_run_ok : Forall (jop_ok true) some_run /\ jweights some_run < 2 ^ 62.
Proof. split; [|vm_compute; auto]. unfold some_run. repeat constructor; vm_compute; auto; try discriminate. Qed.
Example some_run_works : match jrun (jinit 200 10 200 5 true) some_run with
  | Good (j, outs) => filter (fun o => match o with JNone => false | _ => true end) outs = [JWait 0; JWait 0; JGot 0 two two; JGot 4 two two] /\ lenN (t_dyn (d_table (j_dec j))) = 1 /\ n_unacked (j_enc j) = [] /\ t_acked (n_table (j_enc j)) = 1
  | _ => False end.
Proof. vm_compute. auto 10. Qed.

(** Without [dec_table <= enc_table] headers need not arrive: the encoder counts its entries with the smaller of the two limits, the decoder with its own (RFC 9204, section 4.5.1.1, asks for the decoder's),
    so the required insert count is misread once it wraps: here the fourth block waits for eight insertions when there are four. *)
Definition one (n : N) : list header := [([120; 45; n], [n])].
Definition round (n : N) : list jop := [JEncode (4 * n) (one (97 + n)) [true; true]; JDown 1000; JBlock (4 * n); JSend 1000; JUp 1000].
Theorem smaller_encoder_limit_refuted : exists ops, Forall (jop_ok false) ops /\ match jrun (jinit 64 10 128 5 false) ops with
  | Good (j, outs) => In (JWait 12) outs /\ j_down j = [] /\ d_reader (j_dec j) = SInstr /\ first_block 12 (j_blocks j) <> None /\ j_dead j = []
  | _ => False end.
Proof.
  exists ([JSettings; JOpenEncoder; JOpenDecoder; JUpdates [true; true]] ++ round 0 ++ round 1 ++ round 2 ++ round 3). split; [|vm_compute; splits; auto 40; discriminate].
  repeat constructor; vm_compute; auto; try discriminate.
Qed.
Print Assumptions smaller_encoder_limit_refuted.
(** A stream given up before the encoder's capacity instruction arrived: the decoder, its table having no capacity, says nothing, and the encoder keeps the references for good. *)
Theorem early_cancellation_releases_refuted : exists ops, Forall (jop_ok false) ops /\ match jrun (jinit 128 10 128 5 false) ops with
  | Good (j, outs) => j_down j = [] /\ d_out (j_dec j) = [] /\ j_up j = [] /\ In 0 (j_dead j) /\ ub_get 0 (n_unacked (j_enc j)) = Some [[0]]
  | _ => False end.
Proof.
  exists [JSettings; JOpenEncoder; JOpenDecoder; JUpdates [true; true]; JEncode 0 (one 97) [true; true]; JBlock 0; JCancel 0; JDown 1000; JSend 1000; JUp 1000]. split; [|vm_compute; splits; auto 40].
  repeat constructor; vm_compute; auto; try discriminate.
Qed.
Print Assumptions early_cancellation_releases_refuted.

(** ** C89: a decoder, whatever it is sent
    (neqo-qpack/src/decoder.rs, table.rs, header_block.rs, reader.rs) *)
(** It never panics; its table holds the last insertions within the capacity it announced; lists of headers given out keep to the limit; no more streams wait than it allows. *)
Theorem decoder_any_peer : forall max_table max_blocked ops,
  max_table < 2 ^ 30 -> Forall dop_ok ops -> dweights ops < 2 ^ 62 ->
  match drun (dec_new max_table max_blocked) ops with
  | Good (d, outs) =>
      (exists H, lenN H = t_base (d_table d) /\ holds H (d_table d)) /\
      t_cap (d_table d) <= max_table /\ lenN (d_blocked d) <= max_blocked /\ Forall small outs
  | Bad => True
  | Panic => False
  end.
Proof.
  intros mt mb ops M F W. pose proof (drun_any ops 0 [] _ (dnew_inv mt mb M) F W) as Q. destruct (drun _ ops) as [(d, outs)| |]; auto. destruct Q as (H & V & S1 & Q1 & Q2). cbn [dec_new d_max_table d_maxb] in Q1, Q2. splits; auto.
  - exists H. split; [symmetry; apply V | apply t_ok_holds, V].
  - pose proof (dv_cap _ _ _ V). congruence.
  - pose proof (dv_bl _ _ _ V). congruence.
Qed.
Print Assumptions decoder_any_peer.
Example decoder_any_peer_runs : Forall dop_ok [DOpen; DReceive [63; 33; 67; 120; 45; 97; 2; 49; 50]; DBlock [2; 0; 128] 4; DBlock [3; 0; 128] 8; DGiveUp 8; DSend 100] /\
  match drun (dec_new 200 5) [DOpen; DReceive [63; 33; 67; 120; 45; 97; 2; 49; 50]; DBlock [2; 0; 128] 4; DBlock [3; 0; 128] 8; DGiveUp 8; DSend 100] with
  | Good (d, outs) => outs = [ONone; ONone; OHeaders 4 [([120; 45; 97], [49; 50])]; OWaits 8; ONone; OBytes [132; 72]] /\ t_cap (d_table d) = 64 | _ => False end.
Proof. split; [repeat constructor; vm_compute; auto | vm_compute; auto]. Qed.
Example decoder_refuses : drun (dec_new 200 0) [DBlock [3; 0; 128] 8] = Bad /\ drun (dec_new 200 5) [DReceive [63; 255; 3]] = Bad. Proof. vm_compute. auto. Qed.
