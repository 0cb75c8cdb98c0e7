(** Model of packet building and parsing: neqo-transport/src/packet/mod.rs.  Protection is a record of
    functions: the AEAD and the header protection mask come from NSS and are left abstract. *)
From Verif Require Import Base CodecModel Reader PnModel VerModel.

(** packet/mod.rs:38-58, and neqo-crypto hp::Key::SAMPLE_SIZE. *)
Definition BIT_LONG : N := 128.
Definition BIT_FIXED : N := 64.
Definition BIT_SPIN : N := 32.
Definition BIT_KEY_PHASE : N := 4.
Definition HP_MASK_LONG : N := 15.
Definition HP_MASK_SHORT : N := 31.
Definition SAMPLE_SIZE : nat := 16.
Definition SAMPLE_OFFSET : nat := 4.
Definition LONG_LEN : nat := 2.
Definition MAX_CID : N := 20.

(** crypto.rs [CryptoDxState]: what packets need of the keys in one direction.  [x_seal pn aad body] and
    [x_open pn aad text] are the AEAD, [x_mask sample] the header protection mask, [x_exp] the AEAD expansion. *)
Record keys := mkKeys {
  x_exp : nat;
  x_seal : N -> list N -> list N -> option (list N);
  x_open : N -> list N -> list N -> option (list N);
  x_mask : list N -> list N }.
(** crypto.rs [extra_padding]. *)
Definition extra_padding (x : keys) : nat := SAMPLE_SIZE - x_exp x.

(** Index assignment [l[i] = f(l[i])]; [None]: out of bounds. *)
Definition set_at (i : nat) (f : N -> N) (l : list N) : option (list N) :=
  match skipn i l with x :: r => Some (firstn i l ++ f x :: r) | [] => None end.
(** Slicing [l[a..b]]; [None]: out of bounds. *)
Definition slice (a b : nat) (l : list N) : option (list N) :=
  if (Nat.leb a b && Nat.leb b (length l))%bool then Some (firstn (b - a) (skipn a l)) else None.

(* ------------------------------------------------------------------ *)
(** ** Building *)

(** packet/mod.rs:121-143 [Builder]; [b_len]: [offsets.len]; [b_pns], [b_pne]: [offsets.pn]; [b_mask]:
    [offsets.first_byte_mask].  The [padding] flag is an argument of [b_pad]. *)
Record builder := mkB {
  b_enc : list N; b_pn : N; b_start : nat; b_end : nat; b_mask : N; b_len : nat; b_pns : nat; b_pne : nat; b_limit : nat }.
Definition with_enc (e : list N) (b : builder) : builder :=
  mkB e (b_pn b) (b_start b) (b_end b) (b_mask b) (b_len b) (b_pns b) (b_pne b) (b_limit b).
Definition with_limit (l : nat) (b : builder) : builder :=
  mkB (b_enc b) (b_pn b) (b_start b) (b_end b) (b_mask b) (b_len b) (b_pns b) (b_pne b) l.
Definition U64MAX : N := 18446744073709551615.
(** packet/mod.rs:227-261 [short]; no connection ID is the empty one. *)
Definition b_short (enc : list N) (key_phase : bool) (dcid : list N) (limit : nat) : builder :=
  if (Nat.ltb (length enc) limit && Nat.ltb (5 + length dcid) (limit - length enc))%bool
  then mkB (enc ++ N.lor BIT_FIXED (if key_phase then 4 else 0) :: dcid) U64MAX (length enc) (length enc) HP_MASK_SHORT 0 0 0 limit
  else mkB enc U64MAX (length enc) (length enc) HP_MASK_SHORT 0 0 0 0.
(** codec.rs [encode_vec(1, v)], as bytes; the length byte is truncated (see CodecModel [enc_vec]). *)
Definition vec1 (v : list N) : list N := be_bytes 1 (lenN v) ++ v.
(** packet/mod.rs:268-307 [long]; [None]: [to_byte] of a type without a long header. *)
Definition b_long (enc : list N) (pt : pkt_type) (v : version) (dcid scid : list N) (limit : nat) : option builder :=
  if (Nat.ltb (length enc) limit && Nat.ltb (11 + length dcid + length scid) (limit - length enc))%bool
  then match type_to_byte pt v with
       | None => None
       | Some t => Some (mkB (enc ++ N.lor (N.lor BIT_LONG BIT_FIXED) (N.shiftl t 4) :: be_bytes 4 (wire v) ++ vec1 dcid ++ vec1 scid)
                           U64MAX (length enc) (length enc) HP_MASK_LONG 0 0 0 limit)
       end
  else Some (mkB enc U64MAX (length enc) (length enc) HP_MASK_LONG 0 0 0 0).
(** packet/mod.rs:309-311 [is_long]; [None]: out of bounds. *)
Definition b_is_long (b : builder) : option bool :=
  match skipn (b_start b) (b_enc b) with x :: _ => Some (N.land x 128 =? BIT_LONG) | [] => None end.
(** packet/mod.rs:327-343 [remaining], [is_full], [mark_full]. *)
Definition b_remaining (b : builder) : nat := b_limit b - length (b_enc b).
Definition b_is_full (b : builder) : bool := Nat.ltb (b_limit b) (length (b_enc b) + 2).
Definition b_mark_full (b : builder) : builder := with_limit (length (b_enc b)) b.
(** [Encoder::pad_to]. *)
Definition pad_to (n : nat) (e : list N) : list N := e ++ repeat 0 (n - length e).
(** packet/mod.rs:350-365 [pad]: fills a short packet to the limit. *)
Definition b_pad (padding : bool) (b : builder) : option builder :=
  match b_is_long b with
  | None => if padding then None else Some b
  | Some long => Some (if (padding && negb long)%bool then with_enc (pad_to (b_limit b) (b_enc b)) b else b)
  end.
(** packet/mod.rs:368-374 [scramble]; [rnd] is the random byte. *)
Definition b_scramble (quic_bit : bool) (rnd : N) (b : builder) : option builder :=
  match b_is_long b with
  | None => None
  | Some long =>
      let mask := N.lor (if quic_bit then BIT_FIXED else 0) (if long then 0 else BIT_SPIN) in
      match set_at (b_start b) (fun x => N.lxor x (N.land rnd mask)) (b_enc b) with
      | Some e => Some (with_enc e b)
      | None => None
      end
  end.
(** packet/mod.rs:378-384 [initial_token]; [None]: a token too long for any length. *)
Definition b_token (token : list N) (b : builder) : option builder :=
  match varint_bytes (lenN token) with
  | None => None
  | Some l => Some (if Nat.ltb (length l + length token) (b_remaining b)
                    then with_enc (b_enc b ++ l ++ token) b else with_limit 0 b)
  end.
(** packet/mod.rs:396-427 [pn]; [None]: the assertion on the length. *)
Definition b_number (pn : N) (pn_len : nat) (b : builder) : option builder :=
  if Nat.ltb (b_remaining b) MAX_PACKET_NUMBER_LEN then Some (with_limit 0 b)
  else match b_is_long b with
       | None => None
       | Some long =>
           if (long && Nat.ltb (b_remaining b) (LONG_LEN + MAX_PACKET_NUMBER_LEN))%bool then Some (with_limit 0 b)
           else
             let e1 := if long then b_enc b ++ repeat 0 LONG_LEN else b_enc b in
             let n := Nat.min MAX_PACKET_NUMBER_LEN pn_len in
             if Nat.eqb n 0 then None
             else
               let e2 := e1 ++ be_bytes n pn in
               match set_at (b_start b) (fun x => N.lor x (N.of_nat (n - 1))) e2 with
               | None => None
               | Some e3 => Some (mkB e3 pn (b_start b) (length e3) (b_mask b) (if long then length (b_enc b) else b_len b)
                                      (length e1) (length e2) (b_limit b))
               end
       end.
(** Writing frames through the encoder inside. *)
Definition b_write (bytes : list N) (b : builder) : builder := with_enc (b_enc b ++ bytes) b.
(** packet/mod.rs:430-434 [write_len]. *)
Definition write_len (expansion : nat) (len_at : nat) (e : list N) : option (list N) :=
  let len := N.of_nat (length e - (len_at + LONG_LEN) + expansion) in
  match set_at len_at (fun _ => N.lor 64 (N.land (N.shiftr len 8) 63)) e with
  | Some e1 => set_at (len_at + 1) (fun _ => N.land len 255) e1
  | None => None
  end.
(** packet/mod.rs:518-520: the mask on the packet number bytes, from [j] on. *)
Fixpoint mask_pn (j : nat) (ms : list N) (e : list N) : option (list N) :=
  match ms with
  | [] => Some e
  | m :: ms' => match set_at j (fun x => N.lxor x m) e with Some e' => mask_pn (S j) ms' e' | None => None end
  end.
(** packet/mod.rs:505-520, the end of [build], on the padded packet with its length in place.
    The AEAD works in place; the space for its expansion is the padding added last. *)
Definition protect (x : keys) (b : builder) (e2 : list N) : option (option (list N)) :=
  match slice (b_start b) (b_end b) e2 with
  | None => None
  | Some aad =>
      match x_seal x (b_pn b) aad (skipn (b_end b) e2) with
      | None => Some None
      | Some text =>
          let e3 := firstn (b_end b) e2 ++ text in
          let n := (b_pne b - b_pns b)%nat in
          let at_ := (b_end b + SAMPLE_OFFSET - n)%nat in
          match slice at_ (at_ + SAMPLE_SIZE) e3 with
          | None => None
          | Some sample =>
              let mask := x_mask x sample in
              match set_at (b_start b) (fun y => N.lxor y (N.land (hd 0 mask) (b_mask b))) e3 with
              | None => None
              | Some e4 => match mask_pn (b_pns b) (firstn n (skipn 1 mask)) e4 with Some e5 => Some (Some e5) | None => None end
              end
          end
      end
  end.
(** packet/mod.rs:479-524 [build]: [None] is a panic (the assertion on the limit, an index); [Some None] an error. *)
Definition b_build (x : keys) (b : builder) : option (option (list N)) :=
  if Nat.ltb (b_limit b) (length (b_enc b)) then None
  else
    let e1 := pad_to (b_pns b + MAX_PACKET_NUMBER_LEN + extra_padding x) (b_enc b) in
    match (if Nat.ltb 0 (b_len b) then write_len (x_exp x) (b_len b) e1 else Some e1) with
    | None => None
    | Some e2 => protect x b e2
    end.
(** packet/mod.rs:528-532 [abort]. *)
Definition b_abort (b : builder) : list N := firstn (b_start b) (b_enc b).
(** connection/mod.rs:2327-2382 [build_packet_header]: [la] is the largest number acknowledged, [rnd] the random byte
    of [scramble]; the key phase, connection IDs and token come from the keys, the path and address validation. *)
Definition build_header (enc : list N) (pt : pkt_type) (v : version) (key_phase : bool) (dcid scid token : list N) (limit : nat)
  (grease : bool) (rnd pn : N) (la : option N) : option builder :=
  match (match pt with PShort => Some (b_short enc key_phase dcid limit) | _ => b_long enc pt v dcid scid limit end) with
  | None => None
  | Some b0 =>
      match (if Nat.ltb 0 (b_remaining b0)
             then match b_scramble grease rnd b0 with
                  | None => None
                  | Some b1 => match pt with PInitial => b_token token b1 | _ => Some b1 end
                  end
             else Some b0) with
      | None => None
      | Some b2 => match pn_len pn la with None => None | Some n => b_number pn n b2 end
      end
  end.
(** packet/mod.rs:159-187 [retry]; [rnd]: a random byte; [rseal aad]: the tag.  [None]: an assertion. *)
Definition build_retry (rseal : list N -> list N) (v : version) (dcid scid token odcid : list N) (rnd : N) : option (list N) :=
  match type_to_byte PRetry v with
  | None => None
  | Some t =>
      let p := N.lor (N.lor (N.lor BIT_LONG BIT_FIXED) (N.shiftl t 4)) (N.land rnd 15) :: be_bytes 4 (wire v) ++ vec1 dcid ++ vec1 scid ++ token in
      match token with [] => None | _ => Some (p ++ rseal (vec1 odcid ++ p)) end
  end.
(** packet/mod.rs:191-217 [version_negotiation]; [g3]: the fourth random byte. *)
Definition build_vn (g0 g1 g2 g3 : N) (dcid scid : list N) (client_version : N) (all : list version) : list N :=
  N.lor BIT_LONG (N.land g3 127) :: repeat 0 4 ++ vec1 dcid ++ vec1 scid
  ++ flat_map (be_bytes 4) (vn_versions g0 g1 g2 client_version all).

(* ------------------------------------------------------------------ *)
(** ** Parsing *)

(** packet/mod.rs:567-585 [Public]. *)
Record public := mkPub {
  u_type : pkt_type; u_dcid : list N; u_scid : option (list N); u_token : list N; u_hlen : nat; u_ver : option N;
  u_data : list N; u_scone : option N }.
Inductive perr := NoMoreData | InvalidPacket.
(** One turn of the loop: a packet and what follows it, an error, or a SCONE packet that was skipped. *)
Inductive pres := POk (u : public) (rest : list N) | PErr (e : perr) | PScone (rate : N) (rest : list N).
(** scone.rs:78-83 [Bitrate::from]. *)
Definition bitrate (first ver : N) : N := N.lor (N.shiftr ver 31) (N.shiftl (N.land first 63) 1).
(** The decoder's offset after reading, when [rest] is left of [data]. *)
Definition offset (data rest : list N) : nat := length data - length rest.
(** packet/mod.rs:594-625 [decode_long]: the token, the header length and what is left after the packet.
    [rexp v]: the expansion of the Retry AEAD. *)
Definition decode_long (rexp : version -> nat) (data l : list N) (pt : pkt_type) (v : version) : (list N * nat * list N) + perr :=
  match pt with
  | PRetry =>
      if Nat.ltb (length l) (rexp v) then inr InvalidPacket
      else match rd_bytes (N.of_nat (length l - rexp v)) l with
           | None => inr NoMoreData
           | Some (token, l1) =>
               match token with
               | [] => inr InvalidPacket
               | _ => match rd_bytes (N.of_nat (rexp v)) l1 with None => inr NoMoreData | Some (_, l2) => inl (token, offset data l, l2) end
               end
           end
  | _ =>
      match (match pt with PInitial => rd_vvec l | _ => Some ([], l) end) with
      | None => inr NoMoreData
      | Some (token, l1) =>
          match rd_varint l1 with
          | None => inr NoMoreData
          | Some (len, l2) => match rd_bytes len l2 with None => inr NoMoreData | Some (_, l3) => inl (token, offset data l2, l3) end
          end
      end
  end.
(** packet/mod.rs:659-778, the body of the loop of [decode_inner].  [cid] is the connection ID decoder: the
    ID and what is left.  [None]: the type of a long header is not one of the four (an [expect] in [from_byte]). *)
Definition decode_turn (rexp : version -> nat) (cid : list N -> option (list N * list N)) (other_ok : bool) (scone : option N) (data : list N)
  : option pres :=
  match rd_n 1 data with
  | None => Some (PErr NoMoreData)
  | Some (first, l0) =>
      if N.land first 128 =? 0 then
        match cid l0 with
        | None => Some (PErr NoMoreData)
        | Some (dcid, l1) =>
            if Nat.ltb (length l1) (SAMPLE_OFFSET + SAMPLE_SIZE) then Some (PErr InvalidPacket)
            else Some (POk (mkPub PShort dcid None [] (offset data l1) None data scone) [])
        end
      else
        match rd_n 4 l0 with
        | None => Some (PErr NoMoreData)
        | Some (ver, l1) =>
            match rd_vec 1 l1 with
            | None => Some (PErr NoMoreData)
            | Some (dcid, l2) =>
                match rd_vec 1 l2 with
                | None => Some (PErr NoMoreData)
                | Some (scid, l3) =>
                    if ver =? 0 then Some (POk (mkPub PVn dcid (Some scid) [] (offset data l3) None data scone) [])
                    else if (ver =? SCONE1) || (ver =? SCONE2) then
                      match scone with Some _ => Some (PErr InvalidPacket) | None => Some (PScone (bitrate first ver) l3) end
                    else
                      match version_of_wire ver with
                      | None => if other_ok then Some (POk (mkPub POther dcid (Some scid) [] (offset data l3) (Some ver) data scone) [])
                                else Some (PErr InvalidPacket)
                      | Some v =>
                          if (MAX_CID <? lenN dcid) || (MAX_CID <? lenN scid) then Some (PErr InvalidPacket)
                          else
                            match type_from_byte (N.land (N.shiftr first 4) 3) v with
                            | None => None
                            | Some pt =>
                                match decode_long rexp data l3 pt v with
                                | inr e => Some (PErr e)
                                | inl (token, hlen, l4) =>
                                    Some (POk (mkPub pt dcid (Some scid) token hlen (Some (wire v)) (firstn (offset data l4) data) scone)
                                              (skipn (offset data l4) data))
                                end
                            end
                      end
                end
            end
        end
  end.
(** packet/mod.rs:652-780 [decode_inner].  A second SCONE packet is an error, so the loop turns at most twice. *)
Definition decode_pkt (rexp : version -> nat) (cid : list N -> option (list N * list N)) (other_ok : bool) (data : list N) : option pres :=
  match decode_turn rexp cid other_ok None data with
  | Some (PScone rate rest) => decode_turn rexp cid other_ok (Some rate) rest
  | r => r
  end.

(** packet/mod.rs:874-925 [decrypt_header], given [next_pn].  The key phase, the packet number, the end of the
    header, and the data with the header unmasked.  [None]: a panic; [Some None]: an error. *)
Definition decrypt_header (x : keys) (next_pn : N) (u : public) : option (option (bool * N * nat * list N)) :=
  let at_ := (u_hlen u + SAMPLE_OFFSET)%nat in
  match slice at_ (at_ + SAMPLE_SIZE) (u_data u) with
  | None => Some None
  | Some sample =>
      let mask := x_mask x sample in
      let bits := match u_type u with PShort => HP_MASK_SHORT | _ => HP_MASK_LONG end in
      match u_data u with
      | [] => None
      | b0 :: data1 =>
          let first := N.lxor b0 (N.land (hd 0 mask) bits) in
          match slice (u_hlen u) (u_hlen u + MAX_PACKET_NUMBER_LEN) (first :: data1) with
          | None => None
          | Some four =>
              let n := N.to_nat (N.land first 3 + 1) in
              let bytes := map (fun p => N.lxor (fst p) (snd p)) (combine four (firstn 4 (skipn 1 mask))) in
              let data2 := firstn (u_hlen u) (first :: data1) ++ firstn n bytes ++ skipn (u_hlen u + n) (first :: data1) in
              Some (Some (match u_type u with PShort => N.land first BIT_KEY_PHASE =? BIT_KEY_PHASE | _ => false end,
                          pn_read next_pn bytes n, (u_hlen u + n)%nat, data2))
          end
      end
  end.
(** packet/mod.rs:927-1008 [decrypt], once the keys have been chosen (see KeyModel for the choice). *)
Inductive dres := DOk (key_phase : bool) (pn : N) (body : list N) | DErr | DProtocolViolation.
Definition unprotect (x : keys) (next_pn : N) (u : public) : option dres :=
  match decrypt_header x next_pn u with
  | None => None
  | Some None => Some DErr
  | Some (Some (kp, pn, hend, data)) =>
      match x_open x pn (firstn hend data) (skipn hend data) with
      | None => Some DErr
      | Some body =>
          let reserved := if is_long_type (u_type u) then 12 else 24 in
          if N.land (hd 0 data) reserved =? 0 then Some (DOk kp pn body) else Some DProtocolViolation
      end
  end.
(** packet/mod.rs:782-804 [is_valid_retry]; [ropen aad tag]: whether the tag is right. *)
Definition valid_retry (rexp : version -> nat) (ropen : version -> list N -> list N -> bool) (odcid : list N) (u : public) : bool :=
  match u_type u, u_ver u with
  | PRetry, Some w =>
      match version_of_wire w with
      | Some v =>
          let k := (length (u_data u) - rexp v)%nat in
          if Nat.leb (length (u_data u)) (rexp v) then false
          else ropen v (vec1 odcid ++ firstn k (u_data u)) (skipn k (u_data u))
      | None => false
      end
  | _, _ => false
  end.
(** packet/mod.rs:1014-1025 [supported_versions]; [None] is an error. *)
Fixpoint read_versions (fuel : nat) (l : list N) : option (list N) :=
  match fuel with
  | O => Some []
  | S f => match l with
           | [] => Some []
           | _ => match rd_n 4 l with None => None | Some (v, r) => match read_versions f r with Some vs => Some (v :: vs) | None => None end end
           end
  end.
Definition supported_versions (u : public) : option (list N) :=
  match u_type u with PVn => read_versions (length (u_data u)) (skipn (u_hlen u) (u_data u)) | _ => None end.
