(** Transport parameters: neqo-transport/src/tparams.rs, with their use in connection/mod.rs:3088-3200 [process_tps],
    [validate_cids], in the session ticket (connection/mod.rs:857-885) and in the client's resumption token
    (crypto.rs:385-409, connection/mod.rs:777-846).  TLS, which carries these bytes, is outside. *)
From Verif Require Import Base CodecModel Reader VerModel.

(** tparams.rs:36-65 [TransportParameterId], in declaration order ([EnumMap] iterates in it); the [cfg(test)] one is left out. *)
Inductive tpid :=
| OriginalDestinationConnectionId | IdleTimeout | StatelessResetToken | MaxUdpPayloadSize | InitialMaxData
| InitialMaxStreamDataBidiLocal | InitialMaxStreamDataBidiRemote | InitialMaxStreamDataUni | InitialMaxStreamsBidi
| InitialMaxStreamsUni | AckDelayExponent | MaxAckDelay | DisableMigration | PreferredAddress | ActiveConnectionIdLimit
| InitialSourceConnectionId | RetrySourceConnectionId | VersionInformation | ResetStreamAt | Scone | GreaseQuicBit
| MinAckDelay | MaxDatagramFrameSize.
Definition all_ids : list tpid :=
  [OriginalDestinationConnectionId; IdleTimeout; StatelessResetToken; MaxUdpPayloadSize; InitialMaxData;
   InitialMaxStreamDataBidiLocal; InitialMaxStreamDataBidiRemote; InitialMaxStreamDataUni; InitialMaxStreamsBidi;
   InitialMaxStreamsUni; AckDelayExponent; MaxAckDelay; DisableMigration; PreferredAddress; ActiveConnectionIdLimit;
   InitialSourceConnectionId; RetrySourceConnectionId; VersionInformation; ResetStreamAt; Scone; GreaseQuicBit;
   MinAckDelay; MaxDatagramFrameSize].
(** tparams.rs:36-65: the discriminants. *)
Definition tp_code (k : tpid) : N :=
  match k with
  | OriginalDestinationConnectionId => 0 | IdleTimeout => 1 | StatelessResetToken => 2 | MaxUdpPayloadSize => 3
  | InitialMaxData => 4 | InitialMaxStreamDataBidiLocal => 5 | InitialMaxStreamDataBidiRemote => 6
  | InitialMaxStreamDataUni => 7 | InitialMaxStreamsBidi => 8 | InitialMaxStreamsUni => 9 | AckDelayExponent => 10
  | MaxAckDelay => 11 | DisableMigration => 12 | PreferredAddress => 13 | ActiveConnectionIdLimit => 14
  | InitialSourceConnectionId => 15 | RetrySourceConnectionId => 16 | VersionInformation => 17 | ResetStreamAt => 29
  | Scone => 8606 | GreaseQuicBit => 10930 | MinAckDelay => 4278378010 | MaxDatagramFrameSize => 32
  end.
(** tparams.rs:79-85 [try_from]. *)
Definition tp_of_code (c : N) : option tpid := List.find (fun k => tp_code k =? c) all_ids.
Definition tpid_eqb (a b : tpid) : bool := tp_code a =? tp_code b.

(** tparams.rs:147-163 [TransportParameter].  A socket address is its octets and port, for IPv6 with flow information and scope. *)
Inductive tparam :=
| PBytes (l : list N)
| PInt (n : N)
| PEmpty
| PAddr (v4 : option (list N * N)) (v6 : option (list N * N * N * N)) (cid srt : list N)
| PVersions (current : N) (other : list N).
Inductive terr := ENoMoreData | ETransportParameter | EStreamLimitTp | ETooMuchData | EProtocolViolationTp | EUnknownCid | EResumptionToken | EDisabledVersion.

(** codec.rs [encode_vvec], [encode_vvec_with] (the same bytes, CodecProofs.enc_vvec_with_eq); [None]: a panic. *)
Definition vvec (body : list N) : option (list N) :=
  match varint_bytes (lenN body) with Some h => Some (h ++ body) | None => None end.
(** The content of tparams.rs:195-239 [encode]. *)
Definition tp_body (p : tparam) : option (list N) :=
  match p with
  | PBytes a => Some a
  | PInt n => varint_bytes n
  | PEmpty => Some []
  | PAddr v4 v6 cid srt =>
      Some ((match v4 with Some (ip, port) => ip ++ be_bytes 2 port | None => repeat 0 6 end)
            ++ (match v6 with Some (ip, port, _, _) => ip ++ be_bytes 2 port | None => repeat 0 18 end)
            ++ be_bytes 1 (lenN cid) ++ cid ++ srt)
  | PVersions c other => Some (be_bytes 4 c ++ flat_map (be_bytes 4) other)
  end.
(** tparams.rs:195-239 [encode]. *)
Definition tp_encode (k : tpid) (p : tparam) : option (list N) :=
  match varint_bytes (tp_code k), tp_body p with
  | Some h, Some b => match vvec b with Some v => Some (h ++ v) | None => None end
  | _, _ => None
  end.

(** tparams.rs:241-289 [decode_preferred_address]: the value and what is left. *)
Definition all_zero (l : list N) : bool := forallb (N.eqb 0) l.
Definition dec_addr (c : list N) : (tparam * list N) + terr :=
  match rd_bytes 4 c with
  | None => inr ENoMoreData
  | Some (ip4, r1) =>
      match rd_n 2 r1 with
      | None => inr ENoMoreData
      | Some (p4, r2) =>
          if xorb (all_zero ip4) (p4 =? 0) then inr ETransportParameter
          else
            match rd_bytes 16 r2 with
            | None => inr ENoMoreData
            | Some (ip6, r3) =>
                match rd_n 2 r3 with
                | None => inr ENoMoreData
                | Some (p6, r4) =>
                    if xorb (all_zero ip6) (p6 =? 0) then inr ETransportParameter
                    else if (p4 =? 0) && (p6 =? 0) then inr ETransportParameter
                    else
                      match rd_vec 1 r4 with
                      | None => inr ENoMoreData
                      | Some (cid, r5) =>
                          if (lenN cid =? 0) || (20 <? lenN cid) then inr ETransportParameter
                          else
                            match rd_bytes 16 r5 with
                            | None => inr ETransportParameter
                            | Some (srt, r6) =>
                                inl (PAddr (if p4 =? 0 then None else Some (ip4, p4)) (if p6 =? 0 then None else Some (ip6, p6, 0, 0)) cid srt, r6)
                            end
                      end
                end
            end
      end
  end.
(** tparams.rs:291-312 [decode_versions]. *)
Definition dec_version (c : list N) : (N * list N) + terr :=
  match rd_n 4 c with
  | None => inr ENoMoreData
  | Some (v, r) => if v =? 0 then inr ETransportParameter else inl (v, r)
  end.
Fixpoint dec_others (count : nat) (c : list N) : (list N * list N) + terr :=
  match count with
  | O => inl ([], c)
  | S k =>
      match dec_version c with
      | inr e => inr e
      | inl (v, r) => match dec_others k r with inr e => inr e | inl (vs, r') => inl (v :: vs, r') end
      end
  end.
Definition dec_versions (c : list N) : (tparam * list N) + terr :=
  match dec_version c with
  | inr e => inr e
  | inl (v, r) => match dec_others (Nat.div (length r) 4) r with inr e => inr e | inl (vs, r') => inl (PVersions v vs, r') end
  end.
Definition dec_int (ok : N -> bool) (e : terr) (c : list N) : (tparam * list N) + terr :=
  match rd_varint c with Some (v, r) => if ok v then inl (PInt v, r) else inr e | None => inr e end.
(** tparams.rs:326-397, the [match] of [decode]; [server]: the parameters are for a server.  [usize] has 64 bits. *)
Definition tp_value (server : bool) (k : tpid) (c : list N) : (tparam * list N) + terr :=
  match k with
  | OriginalDestinationConnectionId | RetrySourceConnectionId =>
      if server then inr ETransportParameter else inl (PBytes c, [])
  | InitialSourceConnectionId => inl (PBytes c, [])
  | StatelessResetToken => if server || negb (lenN c =? 16) then inr ETransportParameter else inl (PBytes c, [])
  | IdleTimeout | InitialMaxData | InitialMaxStreamDataBidiLocal | InitialMaxStreamDataBidiRemote | InitialMaxStreamDataUni
  | MaxDatagramFrameSize => dec_int (fun _ => true) ETransportParameter c
  | MaxAckDelay => dec_int (fun v => v <? 2 ^ 14) ETransportParameter c
  | InitialMaxStreamsBidi | InitialMaxStreamsUni => dec_int (fun v => v <=? 2 ^ 60) EStreamLimitTp c
  | MaxUdpPayloadSize => dec_int (fun v => 1200 <=? v) ETransportParameter c
  | AckDelayExponent => dec_int (fun v => v <=? 20) ETransportParameter c
  | ActiveConnectionIdLimit => dec_int (fun v => 2 <=? v) ETransportParameter c
  | DisableMigration | GreaseQuicBit | Scone | ResetStreamAt => inl (PEmpty, c)
  | PreferredAddress => if server then inr ETransportParameter else dec_addr c
  | MinAckDelay => dec_int (fun v => v <? 2 ^ 24) ETransportParameter c
  | VersionInformation => dec_versions c
  end.
(** tparams.rs:314-402 [decode] of one parameter: what it is, if it is known, and the rest of the input. *)
Definition tp_decode (server : bool) (l : list N) : (option (tpid * tparam) * list N) + terr :=
  match rd_varint l with
  | None => inr ENoMoreData
  | Some (c, r) =>
      match rd_vvec r with
      | None => inr ENoMoreData
      | Some (content, r') =>
          match tp_of_code c with
          | None => inl (None, r')
          | Some k =>
              match tp_value server k content with
              | inr e => inr e
              | inl (x, []) => inl (Some (k, x), r')
              | inl (_, _ :: _) => inr ETooMuchData
              end
          end
      end
  end.

(** tparams.rs:405-408 [TransportParameters]; 412-414 [set], 417-419 [remove]. *)
Definition tps := tpid -> option tparam.
Definition tps_new : tps := fun _ => None.
Definition tps_put (k : tpid) (v : option tparam) (t : tps) : tps := fun j => if tpid_eqb j k then v else t j.
Definition is_some {A} (o : option A) : bool := match o with Some _ => true | None => false end.
(** tparams.rs:430-456 [decode]: the loop, whose every turn reads at least two bytes. *)
Fixpoint tps_loop (fuel : nat) (server : bool) (l : list N) (t : tps) : tps + terr :=
  match fuel with
  | O => inl t
  | S f =>
      match l with
      | [] => inl t
      | _ :: _ =>
          match tp_decode server l with
          | inr e => inr e
          | inl (None, r) => tps_loop f server r t
          | inl (Some (k, x), r) => if is_some (t k) then inr ETransportParameter else tps_loop f server r (tps_put k (Some x) t)
          end
      end
  end.
Definition tps_decode (server : bool) (l : list N) : tps + terr := tps_loop (length l) server l tps_new.
(** tparams.rs:466-480 [encode_filtered]; [None]: a panic. *)
Fixpoint enc_ids (f : tpid -> bool) (t : tps) (ks : list tpid) : option (list N) :=
  match ks with
  | [] => Some []
  | k :: ks' =>
      match (if f k then match t k with Some p => tp_encode k p | None => Some [] end else Some []), enc_ids f t ks' with
      | Some a, Some b => Some (a ++ b)
      | _, _ => None
      end
  end.
Definition tps_encode_filtered (f : tpid -> bool) (t : tps) : option (list N) := enc_ids f t all_ids.
(** tparams.rs:454-462 [encode]. *)
Definition tps_encode (t : tps) : option (list N) := tps_encode_filtered (fun _ => true) t.
(** tparams.rs:861-884 [filter_ch_outer]. *)
Definition ch_outer (k : tpid) : bool :=
  match k with
  | OriginalDestinationConnectionId | StatelessResetToken | InitialSourceConnectionId | RetrySourceConnectionId | VersionInformation
  | AckDelayExponent | MaxAckDelay | MaxUdpPayloadSize => true
  | _ => false
  end.

(** tparams.rs:499-527 [integer_default]. *)
Definition int_default (k : tpid) : option N :=
  match k with
  | IdleTimeout | InitialMaxData | InitialMaxStreamDataBidiLocal | InitialMaxStreamDataBidiRemote | InitialMaxStreamDataUni
  | InitialMaxStreamsBidi | InitialMaxStreamsUni | MinAckDelay | MaxDatagramFrameSize => Some 0
  | MaxUdpPayloadSize => Some 65527
  | AckDelayExponent => Some 3
  | MaxAckDelay => Some 25
  | ActiveConnectionIdLimit => Some 2
  | _ => None
  end.
(** tparams.rs:484-492 [get_integer]; [None]: a panic. *)
Definition get_integer (k : tpid) (t : tps) : option N :=
  match int_default k with
  | None => None
  | Some d => match t k with None => Some d | Some (PInt x) => Some x | _ => None end
  end.
(** tparams.rs:532-538 [set_integer]. *)
Definition set_integer (k : tpid) (v : N) (t : tps) : option tps :=
  match int_default k with
  | None => None
  | Some d => Some (tps_put k (if d =? v then None else Some (PInt v)) t)
  end.
Definition is_bytes (k : tpid) : bool :=
  match k with OriginalDestinationConnectionId | InitialSourceConnectionId | RetrySourceConnectionId | StatelessResetToken => true | _ => false end.
(** tparams.rs:543-557 [get_bytes]. *)
Definition get_bytes (k : tpid) (t : tps) : option (option (list N)) :=
  if is_bytes k then match t k with None => Some None | Some (PBytes x) => Some (Some x) | _ => None end else None.
Definition is_empty (k : tpid) : bool := match k with DisableMigration | GreaseQuicBit | Scone | ResetStreamAt => true | _ => false end.
(** tparams.rs:604-610 [get_empty]. *)
Definition get_empty (k : tpid) (t : tps) : option bool :=
  match t k with None => Some false | Some PEmpty => Some true | _ => None end.
(** tparams.rs:681-699 [get_preferred_address], 99-110 [PreferredAddress::new] with its assertions. *)
Definition get_preferred (t : tps) : option (option (option (list N * N) * option (list N * N * N * N) * list N * list N)) :=
  match t PreferredAddress with
  | Some (PAddr v4 v6 cid srt) =>
      if (is_some v4 || is_some v6)
         && (match v4 with Some (ip, port) => negb (all_zero ip) && negb (port =? 0) | None => true end)
         && (match v6 with Some (ip, port, _, _) => negb (all_zero ip) && negb (port =? 0) | None => true end)
      then Some (Some (v4, v6, cid, srt)) else None
  | _ => Some None
  end.
(** tparams.rs:702-712 [get_versions]. *)
Definition get_versions (t : tps) : option (N * list N) := match t VersionInformation with Some (PVersions c o) => Some (c, o) | _ => None end.

(** tparams.rs:615-679 [ok_for_0rtt]. *)
Definition skipped_0rtt (k : tpid) : bool :=
  match k with
  | OriginalDestinationConnectionId | InitialSourceConnectionId | RetrySourceConnectionId | StatelessResetToken | IdleTimeout
  | AckDelayExponent | MaxAckDelay | ActiveConnectionIdLimit | PreferredAddress | Scone => true
  | _ => false
  end.
Definition ok_param (k : tpid) (mine remembered : tparam) : bool :=
  match mine, remembered with
  | PInt a, PInt b => match k with MinAckDelay => a <=? b | _ => b <=? a end
  | PEmpty, PEmpty => true
  | PVersions a _, PVersions b _ => a =? b
  | _, _ => false
  end.
Definition ok_for_0rtt (mine remembered : tps) : bool :=
  forallb (fun k => match remembered k with
                    | None => true
                    | Some r => skipped_0rtt k || match mine k with Some m => ok_param k m r | None => false end
                    end) all_ids.
(** connection/mod.rs:863-868: the data in a session ticket; [extra] is the application's. *)
Definition ticket (local : tps) (extra : list N) : option (list N) :=
  match tps_encode local with
  | None => None
  | Some b => match vvec b with Some v => Some (v ++ extra) | None => None end
  end.
(** tparams.rs:955-983 [check]; [app]: the application's checker. *)
Inductive zrtt := ZAccept | ZReject | ZFail.
Definition zero_rtt_check (local : tps) (app : list N -> zrtt) (token : list N) : zrtt :=
  match token with
  | [] => ZReject
  | _ :: _ =>
      match rd_vvec token with
      | None => ZFail
      | Some (b, extra) =>
          match tps_decode false b with
          | inr _ => ZFail
          | inl remembered => if ok_for_0rtt local remembered then app extra else ZReject
          end
      end
  end.

(** crypto.rs:385-409 [create_resumption_token], from the TLS ticket [tls]; [None]: a panic. *)
Definition resumption_token (v : version) (rtt : N) (t : tps) (new_token : option (list N)) (tls : list N) : option (list N) :=
  match varint_bytes rtt, tps_encode t with
  | Some r, Some b =>
      match vvec b, vvec (match new_token with Some x => x | None => [] end) with
      | Some vb, Some vt => Some (be_bytes 4 (wire v) ++ r ++ vb ++ vt ++ tls)
      | _, _ => None
      end
  | _, _ => None
  end.
(** connection/mod.rs:790-815: how a new connection reads it; [enabled] are the configured versions. *)
Definition read_resumption_token (enabled : list version) (token : list N) : (version * N * tps * list N * list N) + terr :=
  match rd_n 4 token with
  | None => inr EResumptionToken
  | Some (w, r1) =>
      match version_of_wire w with
      | None => inr EResumptionToken
      | Some v =>
          if negb (memv v enabled) then inr EDisabledVersion
          else
            match rd_varint r1 with
            | None => inr EResumptionToken
            | Some (rtt, r2) =>
                match rd_vvec r2 with
                | None => inr EResumptionToken
                | Some (b, r3) =>
                    match tps_decode false b with
                    | inr _ => inr EResumptionToken
                    | inl t => match rd_vvec r3 with None => inr EResumptionToken | Some (it, tls) => inl (v, rtt, t, it, tls) end
                    end
                end
            end
      end
  end.

(** What [process_tps] sets: the reset token (if given), the largest UDP payload, the acknowledgement delays in microseconds,
    the connection ID limit, the peer's idle timeout (0: none) and datagram size. *)
Record tp_out := mkTpOut {
  o_reset : option (list N); o_payload : N; o_max_ad : N; o_min_ad : option N; o_cids : N; o_idle : N; o_datagram : N }.
Definition opt_eqb (a b : option (list N)) : bool :=
  match a, b with None, None => true | Some x, Some y => if list_eq_dec N.eq_dec x y then true else false | _, _ => false end.
(** connection/mod.rs:3140-3198 [validate_cids].  [iscid]: [remote_initial_source_cid]; [odcid]: [original_destination_cid];
    [rscid]: the source connection ID of the Retry packet used. *)
Definition validate_cids (client : bool) (iscid odcid rscid : option (list N)) (t : tps) : option (unit + terr) :=
  match get_bytes InitialSourceConnectionId t with
  | None => None
  | Some i =>
      if negb (opt_eqb iscid i) then Some (inr EProtocolViolationTp)
      else if client then
        match get_bytes OriginalDestinationConnectionId t with
        | None => None
        | Some o =>
            if negb (opt_eqb odcid o) then Some (inr EProtocolViolationTp)
            else
              match get_bytes RetrySourceConnectionId t with
              | None => None
              | Some r => if opt_eqb rscid r then Some (inl tt) else Some (inr EProtocolViolationTp)
              end
        end
      else Some (inl tt)
  end.
(** connection/mod.rs:3088-3138 [process_tps], 3066-3082 [set_initial_limits] without the streams (see FcModel);
    [versions_ok]: the result of [validate_versions] (see VerModel). *)
Definition process_tps (client : bool) (iscid odcid rscid : option (list N)) (versions_ok : bool) (t : tps) : option (tp_out + terr) :=
  match validate_cids client iscid odcid rscid t with
  | None => None
  | Some (inr e) => Some (inr e)
  | Some (inl _) =>
      if negb versions_ok then Some (inr ETransportParameter)
      else
        match get_preferred t, get_bytes StatelessResetToken t with
        | Some pref, Some srt =>
            match (match pref with
                   | None => None
                   | Some _ => if negb client then Some ETransportParameter
                               else match iscid with None => Some EUnknownCid | Some [] => Some ETransportParameter | Some _ => None end
                   end) with
            | Some e => Some (inr e)
            | None =>
                if match srt with Some x => negb (lenN x =? 16) | None => false end then Some (inr ETransportParameter)
                else
                  match get_integer MaxUdpPayloadSize t, get_integer MaxAckDelay t, get_integer MinAckDelay t,
                        get_integer ActiveConnectionIdLimit t, get_integer IdleTimeout t, get_integer MaxDatagramFrameSize t with
                  | Some p, Some ad, Some mad, Some c, Some i, Some d =>
                      if is_some (t MinAckDelay) && (ad * 1000 <? mad) then Some (inr ETransportParameter)
                      else Some (inl (mkTpOut srt p (ad * 1000) (if is_some (t MinAckDelay) then Some mad else None) c i d))
                  | _, _, _, _, _, _ => None
                  end
            end
        | _, _ => None
        end
  end.
