(** Model of QUIC version selection: neqo-transport/src/version.rs, the packet type
    mapping of packet/mod.rs, the version handling of tparams.rs and of
    connection/mod.rs. *)
From Verif Require Import Base.

(** version.rs:14-22 [enum Version], with the draft-29 feature on (without it the third
    constructor is simply never used). *)
Inductive version := Version2 | Version1 | Draft29.

Definition version_eqb (a b : version) : bool :=
  match a, b with
  | Version2, Version2 | Version1, Version1 | Draft29, Draft29 => true
  | _, _ => false
  end.

(** version.rs:25-28 *)
Definition SCONE1 : N := 1870512381.  (* 0x6f7dc0fd *)
Definition SCONE2 : N := 4017996029.  (* 0xef7dc0fd *)

(** version.rs:30-33 [wire_version]. *)
Definition wire (v : version) : N :=
  match v with
  | Version2 => 1798521807   (* 0x6b3343cf *)
  | Version1 => 1
  | Draft29 => 4278190109    (* 0xff000000 + 29 *)
  end.

(** version.rs:104-110 [is_draft]. *)
Definition is_draft (v : version) : bool := match v with Draft29 => true | _ => false end.

(** version.rs:114-120 [is_compatible]. *)
Definition is_compatible (a b : version) : bool :=
  version_eqb a b ||
  match a, b with
  | Version1, Version2 | Version2, Version1 => true
  | _, _ => false
  end.

(** version.rs:141-157 [TryFrom<Wire>]. *)
Definition version_of_wire (w : N) : option version :=
  if w =? 1 then Some Version1
  else if w =? 1798521807 then Some Version2
  else if w =? 4278190109 then Some Draft29
  else None.

(** version.rs:159-184 [struct Config]. *)
Record vconfig := mkVcfg { vc_initial : version; vc_all : list version }.

Definition memv (v : version) (l : list version) : bool := existsb (version_eqb v) l.
Definition memw (w : N) (l : list N) : bool := existsb (N.eqb w) l.

(** version.rs:187-192 [Config::new]: panics unless [initial] is in [all]. *)
Definition vcfg_new (i : version) (all : list version) : option vconfig :=
  if memv i all then Some (mkVcfg i all) else None.

(** version.rs:204-213 [set_initial], with its assertion. *)
Definition vcfg_set_initial (i : version) (c : vconfig) : option vconfig :=
  if memv i (vc_all c) then Some (mkVcfg i (vc_all c)) else None.

(** version.rs:133-138, 215-217 [compatible]. *)
Definition vcfg_compatible (c : vconfig) : list version :=
  filter (is_compatible (vc_initial c)) (vc_all c).

(** version.rs:219-229 [find_preferred]. *)
Fixpoint find_preferred (prefs : list version) (vn : list N) : option version :=
  match prefs with
  | [] => None
  | v :: r => if memw (wire v) vn then Some v else find_preferred r vn
  end.

(** version.rs:232-239 [preferred], [preferred_compatible]. *)
Definition preferred (c : vconfig) (vn : list N) : option version :=
  find_preferred (vc_all c) vn.
Definition preferred_compatible (c : vconfig) (vn : list N) : option version :=
  find_preferred (vcfg_compatible c) vn.

(* ------------------------------------------------------------------ *)
(** ** Packet types (packet/mod.rs) *)

(** packet/mod.rs:60-70 [enum Type]. *)
Inductive pkt_type := PInitial | PZeroRtt | PHandshake | PRetry | PShort | POther | PVn.

(** packet/mod.rs:61-70, the discriminants, and the derived [from_repr] on 0..3. *)
Definition pkt_repr (t : pkt_type) : N :=
  match t with
  | PInitial => 0 | PZeroRtt => 1 | PHandshake => 2 | PRetry => 3
  | PShort => 4 | POther => 5 | PVn => 6
  end.
Definition pkt_of_repr (n : N) : option pkt_type :=
  if n =? 0 then Some PInitial else if n =? 1 then Some PZeroRtt
  else if n =? 2 then Some PHandshake else if n =? 3 then Some PRetry
  else if n =? 4 then Some PShort else if n =? 5 then Some POther
  else if n =? 6 then Some PVn else None.

Definition is_long_type (t : pkt_type) : bool :=
  match t with PInitial | PZeroRtt | PHandshake | PRetry => true | _ => false end.

Definition v2_shift (v : version) : N := if version_eqb v Version2 then 1 else 0.

(** packet/mod.rs:73-78 [from_byte]: [t.wrapping_sub(..) & 3] on a u8. *)
Definition type_from_byte (t : N) (v : version) : option pkt_type :=
  pkt_of_repr (N.land ((t + 256 - v2_shift v) mod 256) 3).

(** packet/mod.rs:81-85 [to_byte]; [None] is the assertion. *)
Definition type_to_byte (t : pkt_type) (v : version) : option N :=
  if is_long_type t then Some (N.land (pkt_repr t + v2_shift v) 3) else None.

(* ------------------------------------------------------------------ *)
(** ** Version Negotiation packets and transport parameters *)

(** packet/mod.rs:203-209 (in [version_negotiation]): the greased version; [g0 g1 g2]
    are the first three random bytes. *)
Definition vn_grease (g0 g1 g2 client_version : N) : N :=
  be_val [ N.lor (N.land g0 240) 10; N.lor (N.land g1 240) 10; N.lor (N.land g2 240) 10;
           N.lor (N.land ((client_version + 16) mod 2 ^ 32) 240) 10 ].

(** packet/mod.rs:182-213: the list of versions in the packet. *)
Definition vn_versions (g0 g1 g2 client_version : N) (all : list version) : list N :=
  map wire all ++ [vn_grease g0 g1 g2 client_version].

(** tparams.rs:576-592 [set_versions]: what an endpoint advertises; [r] is the random
    word. *)
Definition tp_grease (r : N) : N := N.lor (N.land r 4042322160) 168430090.
Definition tp_versions (client : bool) (r : N) (c : vconfig) : N * list N :=
  (wire (vc_initial c),
   tp_grease r ::
   map wire (filter (fun v => negb client || is_compatible (vc_initial c) v) (vc_all c))).

(** tparams.rs:769-823 [compatible_upgrade] at a server, first call: [None] is an error
    alert, [Some cfg] the configuration afterwards ([set_initial] asserts membership:
    [Some None]). *)
Definition tp_upgrade_server (c : vconfig) (remote : option (N * list N))
  : option (option vconfig) :=
  match remote with
  | None => Some (Some c)
  | Some (current, other) =>
      if negb (current =? wire (vc_initial c)) then None
      else match preferred_compatible c other with
           | Some p => if version_eqb p (vc_initial c) then Some (Some c)
                       else Some (vcfg_set_initial p c)
           | None => None
           end
  end.

(** tparams.rs:785-797 the same at a client: [true] is acceptance. *)
Definition tp_upgrade_client (c : vconfig) (remote : option (N * list N)) : bool :=
  match remote with
  | None => true
  | Some (current, _) =>
      match version_of_wire current with
      | None => false
      | Some chosen => memv chosen (vcfg_compatible c)
      end
  end.

(* ------------------------------------------------------------------ *)
(** ** The client's view across Version Negotiation, Retry and the handshake *)

(** connection/state.rs: the states that matter here. *)
Inductive vphase := WaitInitial | WaitVersion | Later | VClosed.

(** The parts of a client [Connection] that carry a version: [conn_params] (whose
    [initial] is restored to the original one after Version Negotiation,
    connection/mod.rs:1531-1533), [self.version], the transport parameter handler's own
    [versions], the versions with Initial keys, and whether a Retry was processed. *)
Record vclient := mkVcl {
  cl_conf : vconfig; cl_ver : version; cl_tp : vconfig; cl_keys : list version;
  cl_retry : bool; cl_phase : vphase }.

(** connection/mod.rs:362-395 [new_client] and 425-: the version is the configured
    initial one; keys for every version compatible with it. *)
Definition vcl_new (c : vconfig) : vclient :=
  mkVcl c (vc_initial c) c (vcfg_compatible c) false WaitInitial.

(** connection/mod.rs:1506-1553 [version_negotiation].  [None] is a panic: the
    [assert_ne!], or the assertion of [Config::new]/[set_initial].  Failure to create
    the new connection is left out. *)
Definition vcl_negotiate (supported : list N) (s : vclient) : option vclient :=
  match preferred (cl_conf s) supported with
  | Some v =>
      if version_eqb (cl_ver s) v then None
      else
        match vcfg_new v (vc_all (cl_conf s)) with
        | None => None
        | Some c1 =>
            match vcfg_set_initial (vc_initial (cl_conf s)) c1 with
            | None => None
            | Some c2 => Some (mkVcl c2 v c1 (vcfg_compatible c1) false WaitInitial)
            end
        end
  | None => Some (mkVcl (cl_conf s) (cl_ver s) (cl_tp s) (cl_keys s) (cl_retry s) VClosed)
  end.

(** connection/mod.rs:1628-1646 (in [preprocess_packet]): a Version Negotiation packet
    listing [versions]; [scid_ok] says that its source connection ID is the one the
    client used as destination. *)
Definition vcl_vn (versions : list N) (scid_ok : bool) (s : vclient) : option vclient :=
  match cl_phase s with
  | WaitInitial =>
      if Nat.eqb (length versions) 0 || memw (wire (cl_ver s)) versions || memw 0 versions
         || negb scid_ok || cl_retry s
      then Some s
      else vcl_negotiate versions s
  | _ => Some s
  end.

(** connection/mod.rs:1351-1420 [handle_retry], when the packet is valid: new Initial
    keys (crypto.rs:1062-1110 [init]) for the versions compatible with [conn_params]'s
    initial version.  [cl_keys] are the versions whose keys belong to the connection ID in
    use; the Retry changes that ID, so keys of other versions, although they stay in the
    table, no longer count. *)
Definition vcl_retry (s : vclient) : vclient :=
  match cl_phase s with
  | WaitInitial =>
      if cl_retry s then s
      else mkVcl (cl_conf s) (cl_ver s) (cl_tp s)
                 (vcfg_compatible (cl_conf s)) true WaitInitial
  | _ => s
  end.

(** connection/mod.rs:3259-3284 [compatible_upgrade] at the client: CRYPTO data in a
    packet of version [pv].  Only packets of versions with keys get this far.  [next]
    says which state the handshake moves to. *)
Definition vcl_crypto (pv : version) (next : vphase) (s : vclient) : vclient :=
  if negb (memv pv (cl_keys s)) then s
  else match cl_phase s with
       | WaitInitial | WaitVersion =>
           mkVcl (cl_conf s) pv (cl_tp s) (cl_keys s) (cl_retry s)
                 (match next with Later => Later | _ => WaitVersion end)
       | _ => s
       end.

(** connection/mod.rs:3200-3252 [validate_versions] at the client; [remote] is the peer's
    authenticated version information.  [true] is success. *)
Definition validate_versions (s : vclient) (remote : option (N * list N)) : bool :=
  match remote with
  | Some (current, other) =>
      if negb (wire (cl_ver s) =? current) then false
      else if is_compatible (vc_initial (cl_conf s)) (cl_ver s) then true
      else match preferred (cl_conf s) (other ++ [current]) with
           | None => false
           | Some p => is_compatible p (cl_ver s)
           end
  | None => version_eqb (cl_ver s) Version1 || is_draft (cl_ver s)
  end.

(** tparams.rs:908-925 and connection/mod.rs:3088-3090: what the client accepts. *)
Definition vcl_accepts (s : vclient) (remote : option (N * list N)) : bool :=
  tp_upgrade_client (cl_tp s) remote && validate_versions s remote.

Inductive vevent :=
| EvVn (versions : list N) (scid_ok : bool)
| EvRetry
| EvCrypto (pv : version) (next : vphase).

Definition vcl_step (e : vevent) (s : vclient) : option vclient :=
  match e with
  | EvVn vs ok => vcl_vn vs ok s
  | EvRetry => Some (vcl_retry s)
  | EvCrypto pv n => Some (vcl_crypto pv n s)
  end.

Fixpoint vcl_run (es : list vevent) (s : vclient) : option vclient :=
  match es with
  | [] => Some s
  | e :: r => match vcl_step e s with Some s1 => vcl_run r s1 | None => None end
  end.
