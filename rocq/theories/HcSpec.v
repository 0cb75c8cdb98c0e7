(** What RFC 9114 sections 5.2, 6.2, 7.2 and 8 ask of a connection, stated on the frames a control stream delivered. *)
From Coq Require Import NArith List Bool.
From Verif Require Import Base HfModel HcModel.
Import ListNotations.
Open Scope N_scope.

(** The frames processed from the peer's control stream, with what the rest of the connection answered at that time. *)
Definition heard_one (x : op * out) : list (env * hframe) :=
  match x with
  | (OFrames _ e fs, Heard) => map (pair e) fs
  | _ => []
  end.
Definition heard (t : list (op * out)) : list (env * hframe) := flat_map heard_one t.

Definition had_settings (pre : list (env * hframe)) : Prop := exists e s, In (e, FSettings s) pre.

(** A SETTINGS frame is refused: it takes back something promised to early data, it changes a table capacity that is in
    use, or this QPACK encoder cannot count that far. *)
Inductive settings_fault (old : option settings) (s : settings) : cerr -> Prop :=
  | SF_less o t : old = Some o -> t <> EnableConnect -> s_get s t < s_get o t -> settings_fault old s CSettings
  | SF_table o : old = Some o -> s_get o MaxTableCapacity <> 0 -> s_get o MaxTableCapacity < s_get s MaxTableCapacity -> settings_fault old s CQpackDecoder
  | SF_limit : 2 ^ 30 <= s_get s MaxTableCapacity \/ 2 ^ 16 <= s_get s BlockedStreams -> settings_fault old s CQpackEncoder.

(** Ids of requests: client-initiated bidirectional streams are the multiples of four. *)
Definition request_id (id : N) : Prop := id mod 4 = 0.

(** Frame [f], coming after [pre], breaks a rule. *)
Inductive fault (r : role) (old : option settings) (pre : list (env * hframe)) (e : env) : hframe -> cerr -> Prop :=
  | F_missing f : ~ had_settings pre -> (forall s, f <> FSettings s) -> fault r old pre e f CMissingSettings
  | F_twice s : had_settings pre -> fault r old pre e (FSettings s) CFrameUnexpected
  | F_settings s x : ~ had_settings pre -> settings_fault old s x -> fault r old pre e (FSettings s) x
  | F_data n : had_settings pre -> fault r old pre e (FData n) CFrameUnexpected
  | F_headers b : had_settings pre -> fault r old pre e (FHeaders b) CFrameUnexpected
  | F_promise i b : had_settings pre -> fault r old pre e (FPushPromise i b) CFrameUnexpected
  | F_grease : had_settings pre -> fault r old pre e FGrease CFrameUnexpected
  | F_maxpush i : had_settings pre -> r = Client -> fault r old pre e (FMaxPushId i) CFrameUnexpected
  | F_prioreq i p : had_settings pre -> r = Client -> fault r old pre e (FPriorityRequest i p) CFrameUnexpected
  | F_priopush i p : had_settings pre -> r = Client -> fault r old pre e (FPriorityPush i p) CFrameUnexpected
  | F_goaway i : had_settings pre -> r = Server -> fault r old pre e (FGoaway i) CFrameUnexpected
  | F_cancel i : had_settings pre -> r = Server -> fault r old pre e (FCancelPush i) CFrameUnexpected
  | F_cancelid i : had_settings pre -> r = Client -> e_cancel e i = false -> fault r old pre e (FCancelPush i) CId
  | F_goawayid i : had_settings pre -> r = Client -> ~ request_id i -> fault r old pre e (FGoaway i) CId
  | F_goawayup i e' i' : had_settings pre -> r = Client -> request_id i -> In (e', FGoaway i') pre -> i' < i -> fault r old pre e (FGoaway i) CGoaway
  | F_prioid i p : had_settings pre -> r = Server -> ~ request_id i \/ e_allowed e i = false -> fault r old pre e (FPriorityRequest i p) CId.

(** The run ended without an error. *)
Definition clean (t : list (op * out)) : Prop := forall o x, In (o, x) t -> final x = false.
(** Ids an operation brings in: the transport and this endpoint use each id once. *)
Definition brings (o : op) : list N := match o with ONew id | ORequest id _ => [id] | _ => [] end.

(** What the stream head reader and the transport guarantee (C95, C30): critical streams are unidirectional, requests are
    opened on the client's bidirectional streams. *)
Definition well_typed (o : op) : Prop :=
  match o with
  | OHead id (NControl | NEncoder | NDecoder) => is_uni id = true
  | ORequest id _ => request_id id
  | _ => True
  end.
