(** Agreeing on WebTransport and CONNECT-UDP: neqo-http3/src/conn_params.rs, features/mod.rs, features/extended_connect/mod.rs
    and the parts of connection.rs, webtransport.rs and connect_udp.rs that ask. *)
From Coq Require Import NArith List Bool.
From Verif Require Import Base HfModel.
Import ListNotations.
Open Scope N_scope.

(** conn_params.rs 16-26 [Http3Parameters] with the transport parameters that matter: params.rs 144, 165. *)
Record hparams := mkHP { h_table : N; h_blocked : N; h_webtransport : bool; h_connect : bool; h_datagram : bool; h_size : N; h_reliable : bool }.
(** conn_params.rs 11-39 [default]; neqo-qpack/src/lib.rs 44-54; neqo-transport/src/connection/params.rs 90, 188, 201. *)
Definition h_default : hparams := mkHP 65536 20 false false true 65535 true.
(** The calls that build parameters; None is a failed assertion (qpack lib.rs 69-73). *)
Inductive bop := BTransport (size : N) (reliable : bool) | BTable (n : N) | BBlocked (n : N) | BWebTransport (b : bool) | BConnect (b : bool) | BDatagram (b : bool).
Definition b_step (p : hparams) (o : bop) : option hparams :=
  match o with
  | BTransport size rel => Some (mkHP (h_table p) (h_blocked p) (h_webtransport p) (h_connect p) (h_datagram p) size rel)
  | BTable n => if n <=? 2 ^ 30 - 1 then Some (mkHP n (h_blocked p) (h_webtransport p) (h_connect p) (h_datagram p) (h_size p) (h_reliable p)) else None
  | BBlocked n => Some (mkHP (h_table p) (n mod 2 ^ 16) (h_webtransport p) (h_connect p) (h_datagram p) (h_size p) (h_reliable p))
  (* 116-121, 161-165 *)
  | BWebTransport b => Some (mkHP (h_table p) (h_blocked p) b (h_connect p || b) (h_datagram p) (h_size p) (h_reliable p))
  | BConnect b => Some (mkHP (h_table p) (h_blocked p) (h_webtransport p && b) b (h_datagram p) (h_size p) (h_reliable p))
  | BDatagram b => Some (mkHP (h_table p) (h_blocked p) (h_webtransport p) (h_connect p) b (h_size p) (h_reliable p))
  end.
Fixpoint build (p : hparams) (os : list bop) : option hparams := match os with [] => Some p | o :: r => obind (b_step p o) (fun p' => build p' r) end.
(** 131-155 [webtransport_enabled]; None is its assertion. *)
Definition wt_enabled (p : hparams) : option bool :=
  if negb (h_webtransport p) then Some false
  else if negb (h_connect p) then None
  else Some (h_datagram p && negb (h_size p =? 0) && h_reliable p).
(** settings.rs 224-250: what goes into SETTINGS. *)
Definition h_settings (p : hparams) : option settings :=
  obind (wt_enabled p) (fun wt => Some (settings_of_params (mkP (h_table p) (h_blocked p) wt (h_datagram p) (h_connect p)))).

(** features/mod.rs 22-34 [NegotiationState]; [listener] is whether someone is told. *)
Inductive neg := NDisabled | NNegotiating (listener : bool) | NNegotiated | NFailed.
(** 36-56 [new], [set_listener]. *)
Definition n_new (enable : bool) : neg := if enable then NNegotiating false else NDisabled.
Definition n_listen (n : neg) : neg := match n with NNegotiating _ => NNegotiating true | _ => n end.
Definition n_enabled (n : neg) : bool := match n with NNegotiated => true | _ => false end.
Inductive feature := WebTransport | ConnectUdp.
(** What the application is told: client_events.rs 442-456. *)
Inductive nevent := Told (f : feature) (ok : bool).
(** 58-79 [negotiate]. *)
Definition n_negotiate (f : feature) (n : neg) (ok : bool) : neg * list nevent :=
  match n with
  | NNegotiating l => (if ok then NNegotiated else NFailed, if l then [Told f ok] else [])
  | _ => (n, [])
  end.
(** connection.rs 257-275 [Http3RemoteSettingsState]. *)
Inductive nsettings := NotReceived | ZeroRtt | Received.
Record nconn := mkNC { n_server : bool; n_wt : neg; n_udp : neg; n_state : nsettings }.
(** connection.rs 315-355 [new], [set_features_listener]; connection_client.rs 332: only a client listens. *)
Definition n_init (server : bool) (p : hparams) : option nconn :=
  obind (wt_enabled p) (fun wt =>
    let l n := if server then n else n_listen n in
    Some (mkNC server (l (n_new wt)) (l (n_new (h_connect p))) NotReceived)).
(** extended_connect/mod.rs 120-148 [handle_settings]; [size] and [reliable] are the peer's transport parameters
    (connection.rs 1703-1706). *)
Definition wt_met (server : bool) (s : settings) (size : N) (reliable : bool) : bool :=
  (0 <? size) && reliable && (s_get s EnableH3Datagram =? 1) && (server || ((s_get s EnableConnect =? 1) && (s_get s EnableWebTransport =? 1))).
Definition udp_met (server : bool) (s : settings) : bool := server || (s_get s EnableConnect =? 1).
(** What happens: SETTINGS arrive ([ok]: the QPACK settings can be used and nothing is less than remembered, 1707-1764), early
    data is used or refused (450-460, 468-485), the application creates or answers a session (webtransport.rs 428-468,
    connect_udp.rs 166-208). *)
Inductive nop := NSettings (s : settings) (size : N) (reliable ok : bool) | NEarly | NEarlyRefused | NSession (f : feature).
Inductive nout := OutEvents (l : list nevent) | OutError | OutUnavailable | OutGranted.
Definition n_step (c : nconn) (o : nop) : nconn * nout :=
  match o with
  | NSettings s size reliable ok =>
      match n_state c with
      | Received => (c, OutError)
      | st =>
          (* 1708-1710: with nothing remembered the QPACK settings come first *)
          if match st with NotReceived => negb ok | _ => false end then (c, OutError)
          else
            let '(w, e1) := n_negotiate WebTransport (n_wt c) (wt_met (n_server c) s size reliable) in
            let '(u, e2) := n_negotiate ConnectUdp (n_udp c) (udp_met (n_server c) s) in
            if ok then (mkNC (n_server c) w u Received, OutEvents (e1 ++ e2)) else (mkNC (n_server c) w u st, OutError)
      end
  | NEarly => (mkNC (n_server c) (n_wt c) (n_udp c) (match n_state c with NotReceived => ZeroRtt | st => st end), OutEvents [])
  | NEarlyRefused => (mkNC (n_server c) (n_wt c) (n_udp c) (match n_state c with ZeroRtt => NotReceived | st => st end), OutEvents [])
  | NSession f => (c, if n_enabled (match f with WebTransport => n_wt c | ConnectUdp => n_udp c end) then OutGranted else OutUnavailable)
  end.
(** An error ends the connection, and with it the history. *)
Fixpoint n_run (c : nconn) (os : list nop) : nconn * list (nop * nout) :=
  match os with
  | [] => (c, [])
  | o :: r => let '(c1, x) := n_step c o in match x with OutError => (c1, [(o, x)]) | _ => let '(c2, l) := n_run c1 r in (c2, (o, x) :: l) end
  end.
