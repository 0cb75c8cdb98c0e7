(** C23: bytes in flight, over loss recovery and the congestion controllers of the paths of a connection. *)
From Verif Require Import Base Lib FcModel LrModel LrSpec LrProofs LrProofs2 LrProofs3 CcModel CcSpec CcProofs CcProofs4 CcProofs5.

(** A history of a connection: packets sent on any path, acknowledgements, timeouts, dropped keys, Retry,
    new paths, changes of MTU, changes of primary path of which loss recovery is told. *)
Definition reaches (fast : N) (ss : sstart) (wa : wadj) (mtu : N) (spur : bool) (ops : list sop) (y : sys) : Prop :=
  sys_allowed ops /\ 0 < mtu /\ sys_runs (sys_new fast ss wa mtu spur) ops = Some y.
(** C23: no panic, and the bytes in flight are those of the packets that were sent on the primary path,
    elicit an acknowledgement and are neither acknowledged, lost nor discarded ([flight] sums over what is
    tracked; what is tracked is the subject of C21).  Other paths have none. *)
Theorem bytes_in_flight_partial : forall fast ss wa mtu spur ops, sys_allowed ops -> 0 < mtu ->
  exists y c, reaches fast ss wa mtu spur ops y /\ nth_error (y_paths y) (y_prim y) = Some c /\ c_bif c = flight (y_lr y) /\
    forall i d, nth_error (y_paths y) i = Some d -> i <> y_prim y -> c_bif d = 0.
Proof.
  intros fast ss wa mtu spur ops (A & P) M. destruct (sys_ok ops _ _ _ _ (si_new fast ss wa mtu spur M) A P) as (y & T & last & gone & R & S).
  destruct (prim_path _ _ _ _ S) as (c & Nc & _ & B). exists y, c. split; [exact (conj (conj A P) (conj M R))|]. splits; auto.
  intros i d Hi Ne. destruct (si_paths _ _ _ _ S _ _ Hi) as (_ & _ & Bi). apply Nat.eqb_neq in Ne. now rewrite Ne in Bi.
Qed.
Print Assumptions bytes_in_flight_partial.
(** When nothing that elicits an acknowledgement is outstanding, nothing is in flight. *)
Theorem flight_returns_to_zero : forall fast ss wa mtu spur ops y c, reaches fast ss wa mtu spur ops y ->
  (forall sp p, In p (tracked sp (y_lr y)) -> p_ae p = true -> is_lost p = true) -> nth_error (y_paths y) (y_prim y) = Some c -> c_bif c = 0.
Proof.
  intros fast ss wa mtu spur ops y c (A & M & R) Z Nc. destruct (bytes_in_flight_partial fast ss wa mtu spur ops A M) as (y' & c' & (_ & _ & R') & Nc' & B & _).
  assert (y' = y) by congruence. subst y'. assert (c' = c) by congruence. subst c'. rewrite B.
  assert (H : forall l, (forall p, In p l -> p_ae p = true -> is_lost p = true) -> in_flight l = 0).
  { induction l as [|p l IH]; intros H; [reflexivity|]. rewrite in_flight_cons, IH by (intros q Q; apply H; now right). unfold cc_outstanding.
    destruct (p_ae p) eqn:Ae; [|reflexivity]. rewrite (H p (or_introl eq_refl) Ae). cbn. now rewrite andb_false_r. }
  unfold flight. rewrite !H by (intros p; apply Z). reflexivity.
Qed.
Print Assumptions flight_returns_to_zero.

Definition two_paths (told : bool) : list sop :=
  [SSent 0 TInitial 0 100 true 1 1200 false; SSent 0 THandshake 0 200 true 1 800 false; SPath SsClassic NewReno 1200 false; SPrimary 1 told].
(** Full statement: the same when the primary path changes without loss recovery being told, which is
    what a server does when the peer moves.  It is false: packets sent on the old path still count for the
    new one, and discarding them takes from it what was never added (a failed debug assertion). *)
Theorem bytes_in_flight_refuted : exists ops y c,
  allowed (flat_map lops ops) /\ sys_runs (sys_new 0 SsClassic NewReno 1200 false) ops = Some y /\ nth_error (y_paths y) (y_prim y) = Some c /\
  c_bif c <> flight (y_lr y) /\ sys_step y (SDiscard SpInitial 50 300) = None.
Proof.
  exists (two_paths false). eexists. eexists. split; [cbn; repeat split; lia|]. split; [vm_compute; reflexivity|]. split; [vm_compute; reflexivity|]. split; [vm_compute; discriminate|vm_compute; reflexivity].
Qed.
Print Assumptions bytes_in_flight_refuted.
(** The hypotheses are met: a packet lost, one acknowledged, one dropped with its keys, a change of path. *)
Definition busy : list sop :=
  [SSent 0 TInitial 0 100 true 1 1200 false; SSent 0 TShort 1 200 true 1 1000 false; SSent 0 TShort 2 210 true 1 1100 false; SSent 0 TShort 6 220 true 1 900 false;
   SAck SpApp [(6, 6)] 0 400 1000 50 (mkEnv 400 500 180 None true 5); SDiscard SpInitial 50 500].
Example busy_allowed : sys_allowed (busy ++ [SSent 0 TShort 7 520 true 1 700 false]).
Proof. unfold sys_allowed, allowed, env_ok. cbn. repeat split; try lia; try discriminate. Qed.
Example busy_in_flight :
  match sys_runs (sys_new 0 SsClassic NewReno 1200 false) (busy ++ [SSent 0 TShort 7 520 true 1 700 false]) with
  | Some y => map c_bif (y_paths y) = [700] /\ flight (y_lr y) = 700 /\ tracked SpApp (y_lr y) <> []
  | None => False end.
Proof. vm_compute. repeat split; discriminate. Qed.
Example busy_zero : match sys_runs (sys_new 0 SsClassic NewReno 1200 false) busy with Some y => map c_bif (y_paths y) = [0] | None => False end.
Proof. vm_compute. reflexivity. Qed.
Example told_moves : match sys_runs (sys_new 0 SsClassic NewReno 1200 false) (two_paths true) with Some y => map c_bif (y_paths y) = [0; 0] /\ flight (y_lr y) = 0 | None => False end.
Proof. vm_compute. auto. Qed.
