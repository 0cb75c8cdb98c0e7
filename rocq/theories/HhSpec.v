(** Well-formed HTTP/3 headers (RFC 9114 sections 4.2, 4.3 and 4.4, RFC 9220), without the check: pseudo-header fields first,
    each known for its kind of message and there once. *)
From Coq Require Import String Ascii.
From Verif Require Import Base Lib HhModel.
Open Scope N_scope.
Open Scope list_scope.
Import ListNotations.

Definition known (mt : mtype) : list (list N) :=
  match mt with
  | Request => [str ":method"; str ":scheme"; str ":authority"; str ":path"; str ":protocol"]
  | Response => [str ":status"]
  end.
(** No upper case, no colon, nothing that ends a line. *)
Definition fine_name (n : list N) : Prop := forall b, In b n -> ~ (0x41 <= b <= 0x5a) /\ ~ In b [0; 0x0a; 0x0d; 0x3a].
Definition fine_value (v : list N) : Prop := forall b, In b v -> ~ In b [0; 0x0a; 0x0d].
Definition connection_specific : list (list N) :=
  [str "connection"; str "keep-alive"; str "proxy-connection"; str "transfer-encoding"; str "upgrade"].
Definition has (hs : list header) (n : string) : Prop := exists v, In (str n, v) hs.
Definition complete (mt : mtype) (hs : list header) : Prop :=
  match mt with
  | Response => has hs ":status"
  | Request =>
      (In (str ":method", str "CONNECT") hs /\ has hs ":authority" /\
        forall p, In (str ":protocol", p) hs -> has hs ":scheme" /\ has hs ":path" /\ (p = str "webtransport" -> In (str ":scheme", str "https") hs))
      \/ (exists m, In (str ":method", m) hs /\ m <> str "CONNECT") /\ has hs ":scheme" /\ has hs ":path" /\ ~ has hs ":protocol"
  end.
Record wellformed (mt : mtype) (hs : list header) : Prop := {
  wf_parts : exists ps rs, hs = ps ++ rs /\ (forall h, In h ps -> In (fst h) (known mt)) /\ NoDup (map fst ps) /\ (forall h, In h rs -> fine_name (fst h));
  wf_values : forall h, In h hs -> fine_value (snd h);
  wf_names : forall h, In h hs -> ~ In (fst h) connection_specific;
  wf_te : forall h, In h hs -> fst h = str "te" -> snd h = str "trailers";
  wf_complete : complete mt hs }.
(** RFC 9114 section 4.4: an ordinary CONNECT has neither scheme nor path. *)
Definition connect_bare (hs : list header) : Prop :=
  In (str ":method", str "CONNECT") hs -> ~ has hs ":protocol" -> ~ has hs ":scheme" /\ ~ has hs ":path".
(** A status code: three digits (RFC 9110 section 15), and how it is read here: decimal, within 65535, perhaps after a plus sign. *)
Definition digit (c : N) : Prop := 0x30 <= c <= 0x39.
Definition decimal (v : list N) : N := fold_left (fun a c => a * 10 + (c - 0x30)) v 0.
Definition code_of (v : list N) (n : N) : Prop :=
  exists d, (v = d \/ v = 0x2b :: d) /\ d <> [] /\ Forall digit d /\ n = decimal d /\ n <= 65535.
Definition three_digits (v : list N) : Prop := length v = 3%nat /\ Forall digit v.
(** What an application must never be handed in a response. *)
Definition hop_by_hop : list (list N) := connection_specific ++ [str "host"; str "te"].
