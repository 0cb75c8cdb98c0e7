(** What CRYPTO streams should do, in terms of the calls made and what they returned. *)
From Verif Require Import Base CodecModel FcModel RtModel RtSpec RxModel RxSpec SsModel LrModel SniModel CryModel.

Definition khist := list (kop * kout).
(** Handshake data given for sending in [sp]. *)
Definition supplied (sp : space) (h : khist) : list N :=
  flat_map (fun e => match e with (KSend s d, OOk) => if space_eqb s sp then d else [] | _ => [] end) h.
(** The CRYPTO frames that arrived for [sp], and those accepted. *)
Definition got (sp : space) (h : khist) : list (N * list N) :=
  flat_map (fun e => match e with (KFrame s o d, _) => if space_eqb s sp then [(o, d)] else [] | _ => [] end) h.
Definition accepted (sp : space) (h : khist) : list (N * list N) :=
  flat_map (fun e => match e with (KFrame s o d, OOk) => if space_eqb s sp then [(o, d)] else [] | _ => [] end) h.
(** What the handshake read. *)
Definition handed (sp : space) (h : khist) : list N :=
  flat_map (fun e => match e with (KRead s, OBytes l) => if space_eqb s sp then l else [] | _ => [] end) h.

Definition writes (sp : space) (y : N) (e : kop * kout) : Prop :=
  match e with (KWrite s _ _ _ _, OFrames fs) => s = sp /\ exists o d n, In (o, d, n) fs /\ covers o (lenN d) y | _ => False end.
Definition loses (sp : space) (y : N) (e : kop * kout) : Prop :=
  match fst e with KLost s o l => s = sp /\ covers o l y | KResend s => s = sp /\ sp <> SpApp | _ => False end.
(** Byte [y] was acknowledged; it was written and not declared lost since. *)
Definition k_acked (sp : space) (h : khist) (y : N) : Prop := exists o l, In (KAcked sp o l, OOk) h /\ covers o l y.
Definition k_flight (sp : space) (h : khist) (y : N) : Prop :=
  exists h1 e h2, h = h1 ++ e :: h2 /\ writes sp y e /\ forall e', In e' h2 -> ~ loses sp y e'.

(** The environment: only frames that were written are acknowledged or lost, packets have a
    size, frames end below 2^62 as their encoding forces, and there is less data than the
    buffer holds. *)
Definition was_written (sp : space) (o l : N) (h : khist) : Prop :=
  exists sl lim room spl fs d n, In (KWrite sp sl lim room spl, OFrames fs) h /\ In (o, d, n) fs /\ l = lenN d.
Definition k_fair (h : khist) (o : kop) : Prop :=
  match o with
  | KAcked sp off len | KLost sp off len => was_written sp off len h
  | KWrite _ _ limit room _ => 0 < limit /\ room < 2 ^ 62
  | KFrame _ off d => off + lenN d <= 2 ^ 62
  | KSend sp d => lenN (supplied sp h) + lenN d <= MAX_SIZE
  | _ => True
  end.
Definition fair (h : khist) : Prop := forall h1 e h2, h = h1 ++ e :: h2 -> k_fair h1 (fst e).
(** Keys are discarded in order. *)
Definition discard_ok (c : cstreams) (o : kop) : Prop :=
  match o with KDiscard SpApp => False | KDiscard SpHandshake => c_get SpInitial c = None | _ => True end.
