(** A QPACK encoder and a decoder joined: the invariant. *)
From Verif Require Import Base Lib QpTables QiModel QiSpec QiProofs QiProofs2 QbModel QbSpec QbProofs QbProofs2 QeModel QeProofs QeProofs2 QeProofs3 QjModel.
From Coq Require Import Permutation.
Open Scope N_scope.
Open Scope list_scope.
Import ListNotations.

(** *** What the decoder has sent *)
Inductive ghost := KAck (s : N) (refs : list N) | KInc (n : N) | KCancel (s : N).
Definition erase (g : ghost) : dinstr := match g with KAck s _ => DAck s | KInc n => DIncrement n | KCancel s => DCancel s end.
Fixpoint chain (a : N) (G : list ghost) : N := match G with [] => a | KAck _ r :: G' => chain (ack_to a r) G' | KInc n :: G' => chain (a + n) G' | KCancel _ :: G' => chain a G' end.
Fixpoint acks (s : N) (G : list ghost) : list (list N) := match G with [] => [] | KAck x r :: G' => (if x =? s then [r] else []) ++ acks s G' | _ :: G' => acks s G' end.
Lemma chain_app : forall A a B, chain a (A ++ B) = chain (chain a A) B. Proof. induction A as [|[] A IH]; intros; cbn; auto. Qed.
Lemma chain_mono : forall G a, a <= chain a G. Proof. induction G as [|[s r|n|s] G IH]; intros a; cbn [chain]; [lia | | |apply IH]. - pose proof (ack_to_spec r a). specialize (IH (ack_to a r)). lia. - specialize (IH (a + n)). lia. Qed.
Lemma acks_app : forall s A B, acks s (A ++ B) = acks s A ++ acks s B. Proof. induction A as [|[] A IH]; intros; cbn [acks List.app]; auto. rewrite IH, app_assoc. auto. Qed.
(** No acknowledgment follows a cancellation of the same stream. *)
Fixpoint nocan (G : list ghost) : Prop := match G with [] => True | KCancel s :: G' => acks s G' = [] /\ nocan G' | _ :: G' => nocan G' end.
Lemma nocan_snoc : forall G g, nocan G -> (forall s r, g = KAck s r -> ~ In (KCancel s) G) -> nocan (G ++ [g]).
Proof.
  induction G as [|g0 G IH]; intros g N H; cbn [nocan List.app] in *.
  - destruct g; cbn; auto.
  - assert (nocan (G ++ [g])) as Q by (apply IH; [destruct g0; tauto | intros s r E I; apply (H s r E); right; auto]). destruct g0 as [s0 r0|n0|s0]; auto. split; auto. rewrite acks_app. destruct N as (-> & _). destruct g as [s r| |]; auto. cbn. destruct (N.eqb_spec s s0) as [->|]; auto. exfalso. apply (H s0 r eq_refl). left. auto.
Qed.
Lemma nocan_suffix : forall A B, nocan (A ++ B) -> nocan B. Proof. induction A as [|[] A IH]; intros B N; cbn in N; auto. destruct N. auto. Qed.

(** *** The encoder reads them *)
Definition gfit (g : ghost) : Prop := match g with KInc n => 0 < n | _ => True end.
Lemma call_ghost : forall H g G e rest, einv H [] e -> lenN H < 2 ^ 63 -> gfit g -> (forall s, U (n_unacked e) s = acks s (g :: G) ++ rest s) -> nocan (g :: G) -> chain (t_acked (n_table e)) (g :: G) <= lenN H ->
  exists e', call_instruction e (erase g) = Good e' /\ einv H [] e' /\ econst e e' /\ tlike (n_table e) (n_table e') /\ chain (t_acked (n_table e')) G = chain (t_acked (n_table e)) (g :: G) /\
    (forall s, U (n_unacked e') s = acks s G ++ (if match g with KCancel x => s =? x | _ => false end then [] else rest s)).
Proof.
  intros H g G e rest V LB GF UU NC CH. destruct g as [x r|n|x]; cbn [erase call_instruction chain acks nocan] in *.
  - pose proof (UU x) as UX. rewrite N.eqb_refl in UX. cbn [List.app] in UX. destruct (header_ack_spec H e x r (acks x G ++ rest x) V LB UX) as (e' & E & V' & EC & TL & A & UU'). exists e'. splits; auto; [rewrite A; auto|].
    intros s. rewrite UU', UU. rewrite (N.eqb_sym x s). destruct (N.eqb_spec s x) as [->|]; auto.
  - pose proof (chain_mono G (t_acked (n_table e) + n)) as CM. destruct (N.eqb_spec n 0); [cbn in GF; lia|]. destruct (increment_spec H e n V LB) as (e' & E & V' & EC & TL & A & UU'); [rewrite (ev_base _ _ _ V); lia|]. exists e'. splits; auto; [rewrite A; auto|]. intros s. rewrite UU'. apply UU.
  - destruct (cancel_spec H e x V) as (e' & E & V' & EC & TL & A & UU'). exists e'. splits; auto; [rewrite A; auto|]. intros s. rewrite UU'. destruct (N.eqb_spec s x) as [->|]; auto. destruct NC as (-> & _). auto.
Qed.
Definition cut (G : list ghost) (rest : N -> list (list N)) (s : N) : list (list N) := if existsb (fun g => match g with KCancel x => s =? x | _ => false end) G then [] else rest s.
Lemma call_ghosts : forall H G1 G e rest, einv H [] e -> lenN H < 2 ^ 63 -> Forall gfit G1 -> (forall s, U (n_unacked e) s = acks s (G1 ++ G) ++ rest s) -> nocan (G1 ++ G) -> chain (t_acked (n_table e)) (G1 ++ G) <= lenN H ->
  exists e', call_all e (map erase G1) = Good e' /\ einv H [] e' /\ econst e e' /\ tlike (n_table e) (n_table e') /\ chain (t_acked (n_table e')) G = chain (t_acked (n_table e)) (G1 ++ G) /\
    (forall s, U (n_unacked e') s = acks s G ++ cut G1 rest s).
Proof.
  intros H. induction G1 as [|g G1 IH]; intros G e rest V LB GF UU NC CH; cbn [map call_all List.app] in *.
  - exists e. splits; auto; [unfold econst; auto 10 | apply tlike_refl].
  - inversion GF as [|? ? GF1 GF2]. subst. destruct (call_ghost H g (G1 ++ G) e rest V LB GF1 UU NC CH) as (e1 & -> & V1 & C1 & T1 & CH1 & U1). cbn [rbind].
    destruct (IH G e1 (fun s => if match g with KCancel x => s =? x | _ => false end then [] else rest s) V1 LB GF2 U1) as (e' & E & V' & C' & T' & CH' & U'); [destruct g; cbn [nocan] in NC; tauto | rewrite CH1; auto|].
    exists e'. splits; auto; [eapply econst_trans; eauto | eapply tlike_trans; eauto | congruence|]. intros s. rewrite U'. unfold cut. cbn [existsb]. destruct (match g with KCancel x => s =? x | _ => false end); cbn [orb]; auto. destruct (existsb _ G1); auto.
Qed.

(** *** Bytes of the decoder's instructions *)
Lemma lor_byte : forall a b, a < 256 -> b < 256 -> N.lor a b < 256.
Proof.
  intros a b A B. rewrite <- (N.mod_small a (2 ^ 8)), <- (N.mod_small b (2 ^ 8)) by (change (2 ^ 8) with 256; auto). rewrite <- !N.land_ones, <- N.land_lor_distr_l, N.land_ones. change 256 with (2 ^ 8). apply N.mod_lt. discriminate.
Qed.
Lemma tail_bytes : forall f v, bytes_ok (int_tail f v).
Proof.
  induction f as [|f IH]; intros v; cbn [int_tail]; [constructor|]. assert (N.land v 127 < 128) as L by (change 127 with (N.ones 7); rewrite N.land_ones; apply N.mod_lt; discriminate).
  destruct (0 <? N.shiftr v 7).
  - constructor; [|apply IH]. apply lor_byte; [eapply N.lt_trans; [exact L|]|]; reflexivity.
  - constructor; [eapply N.lt_trans; [exact L|]; reflexivity | constructor].
Qed.
Lemma marshal_bytes : forall i, bytes_ok (d_marshal i).
Proof.
  assert (Q : forall p v, p_val p < 256 -> first_max (p_len p) < 256 -> bytes_ok (encode_int p v)).
  { intros p v P F. unfold encode_int. destruct (N.ltb_spec v (first_max (p_len p))); constructor; try apply tail_bytes; try constructor; apply lor_byte; try lia. eapply N.le_lt_trans; [|exact P]. rewrite N.land_comm. clear. set (a := p_val p). set (b := 255 - _). pose proof (N.lor_ldiff_and a b) as Q. rewrite (N.land_comm b a). assert (N.land (N.ldiff a b) (N.land a b) = 0) as Z by (apply N.bits_inj; intros k; rewrite !N.land_spec, N.ldiff_spec, N.bits_0; destruct (N.testbit a k), (N.testbit b k); auto). rewrite <- N.add_nocarry_lxor in Q || (rewrite <- Q at 2; rewrite <- N.lxor_lor by auto; rewrite <- N.add_nocarry_lxor by auto; lia). }
  intros []; cbn [d_marshal]; apply Q; reflexivity.
Qed.
Lemma d_feed_snoc : forall s a l i, d_feed s a = (l, DInstr, FOk) -> d_fits i -> d_feed s (a ++ d_marshal i) = (l ++ [i], DInstr, FOk).
Proof. intros s a l i E F. rewrite (d_feed_pieces (length a)) by auto. rewrite E. cbn [d_then]. pose proof (d_stream [i] (Forall_cons _ F (Forall_nil _))) as D. cbn [flat_map] in D. rewrite app_nil_r in D. rewrite D. auto. Qed.
Lemma e_feed_snoc : forall h s a l w l2, e_feed s a = (l, SInstr, FOk) -> Forall (i_fits h) l2 -> e_marshals h l2 = Some w -> e_feed s (a ++ w) = (l ++ l2, SInstr, FOk).
Proof. intros h s a l w l2 E F M. rewrite (e_feed_pieces (length a)) by auto. rewrite E. cbn [e_then]. destruct (e_stream h l2 F) as (w' & M' & D). rewrite M in M'. apply some_inj in M'. subst w'. rewrite D. auto. Qed.
Lemma d_feed_cut : forall s a b l, d_feed s (a ++ b) = (l, DInstr, FOk) -> exists l1 s1 l2, d_feed s a = (l1, s1, FOk) /\ d_feed s1 b = (l2, DInstr, FOk) /\ l = l1 ++ l2.
Proof.
  intros s a b l E. rewrite (d_feed_pieces (length a)) in E by auto. destruct (d_feed s a) as ((l1, s1), f) eqn:E1. destruct f; cbn [d_then] in E; try discriminate. destruct (d_feed s1 b) as ((l2, s2), f2) eqn:E2. inversion E. subst. eauto 10.
Qed.
Lemma e_feed_cut : forall s a b l, e_feed s (a ++ b) = (l, SInstr, FOk) -> exists l1 s1 l2, e_feed s a = (l1, s1, FOk) /\ e_feed s1 b = (l2, SInstr, FOk) /\ l = l1 ++ l2.
Proof.
  intros s a b l E. rewrite (e_feed_pieces (length a)) in E by auto. destruct (e_feed s a) as ((l1, s1), f) eqn:E1. destruct f; cbn [e_then] in E; try discriminate. destruct (e_feed s1 b) as ((l2, s2), f2) eqn:E2. inversion E. subst. eauto 10.
Qed.

(** *** The decoder executes *)
Definition caps_ok (S : N) (l : list einstr) : Prop := Forall (fun i => match i with ECapacity c => c <= S | _ => True end) l.
Lemma execute_ok : forall S l d td', d_max_table d = S -> caps_ok S l -> t_exec_all (d_table d) l = Good td' -> execute_all d l = Good (dwith_table td' d).
Proof.
  intros S. induction l as [|i l IH]; intros d td' DM C E; cbn [execute_all t_exec_all] in *.
  - inversion E. subst. destruct d. auto.
  - inversion C as [|? ? C1 C2]. subst. destruct (t_exec (d_table d) i) as [t1| |] eqn:E1; cbn [rbind] in E; try discriminate.
    assert (execute d i = Good (dwith_table t1 d)) as ->.
    { destruct i as [v| | |n v|]; cbn [t_exec execute] in *; try discriminate.
      - destruct (N.ltb_spec (d_max_table d) v); [lia|]. rewrite E1. auto.
      - destruct (insert (d_table d) n v) as [(t, k)| |]; cbn [rbind] in *; try discriminate. inversion E1. auto. }
    cbn [rbind]. rewrite (IH (dwith_table t1 d) td'); auto.
Qed.
Lemma exec_keep : forall l H t t', t_ok H t -> t_base t = lenN H -> t_exec_all t l = Good t' -> t_ok (H ++ inserts l) t' /\ t_base t' = lenN (H ++ inserts l) /\ oldest t <= oldest t' /\ t_acked t' = t_acked t /\ (Forall (fun e => x_refs e = 0) (t_dyn t) -> Forall (fun e => x_refs e = 0) (t_dyn t')).
Proof.
  induction l as [|i l IH]; intros H t t' O B E; cbn [t_exec_all inserts] in *.
  - inversion E. subst. rewrite app_nil_r. splits; auto; lia.
  - destruct (t_exec t i) as [t1| |] eqn:E1; cbn [rbind] in E; try discriminate. destruct i as [v| | |n v|]; cbn [t_exec] in E1; try discriminate.
    + pose proof (set_capacity_spec H t v O) as SP. rewrite E1 in SP. destruct SP as (O1 & B1 & A1 & C1 & L1 & I1 & _). destruct (IH H t1 t' O1) as (P1 & P2 & P3 & P4 & P5); [congruence | auto|]. splits; auto; [lia | congruence|]. intros F. apply P5. rewrite Forall_forall in *. auto.
    + destruct (insert_spec H t n v O B) as (r & ER & SP). rewrite ER in E1. destruct r as [(t2, k)| |]; cbn [rbind] in E1; try discriminate. inversion E1. subst t2. destruct SP as (_ & O1 & B1 & A1 & C1 & L1 & I1 & _).
      destruct (IH (H ++ [(n, v)]) t1 t' O1) as (P1 & P2 & P3 & P4 & P5); [rewrite lenN_app, lenN_cons, lenN_nil; lia | auto|]. rewrite <- app_assoc in P1, P2. cbn [List.app] in P1, P2. splits; auto; [lia | congruence|].
      intros F. apply P5. rewrite Forall_forall in *. intros e I. destruct (I1 e I) as [J| ->]; auto.
Qed.
