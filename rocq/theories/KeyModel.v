(** Packet protection keys and key updates: neqo-transport/src/crypto.rs 470-870 (one direction) and
    870-1375 (1-RTT and 0-RTT keys), with the order of calls of packet/mod.rs:927-1008 and
    connection/mod.rs.  TLS, HKDF and the AEAD are outside: a 1-RTT secret is the number of times "quic ku"
    was applied to the secret TLS gave, and a packet opens with the key it was sealed with.
    Initial and Handshake keys are not modelled. *)
From Verif Require Import Base FcModel.

Inductive kerr := EOverlap | EExhausted | EBlocked | EInternalK | EDecrypt | EViolationK | EPending | EDiscarded.
Inductive dir := DRead | DWrite.
(** The three TLS 1.3 cipher suites. *)
Inductive cipher := Aes128 | Aes256 | ChaCha.

(** crypto.rs:471-493 [CryptoDxState]; [d_gen] stands for the secret of the AEAD key: how many updates away
    from TLS's. [d_s], [d_e]: [used_pn].  The header protection key never changes. *)
Record dx := mkDx { d_epoch : N; d_gen : N; d_s : N; d_e : N; d_min : N; d_inv : N; d_len : N }.
(** crypto.rs:494, 62. *)
Definition INITIAL_LARGEST : N := 2048.
Definition UPDATE_WRITE_KEYS_AT : N := 100.
Definition NUMBER_MAX : N := 2 ^ 64 - 1.

(** crypto.rs:551-570 [limit]. *)
Definition limit (d : dir) (c : cipher) : N :=
  match d, c with
  | DRead, Aes128 => 2 ^ 52
  | DRead, Aes256 => NUMBER_MAX
  | DRead, ChaCha => 2 ^ 36
  | DWrite, ChaCha => NUMBER_MAX
  | DWrite, _ => 2 ^ 28
  end.
(** crypto.rs:497-527 [new], with [min_pn] 0. *)
Definition dx_new (d : dir) (c : cipher) (epoch : N) : dx := mkDx epoch 0 0 0 0 (limit d c) INITIAL_LARGEST.
(** crypto.rs:572-586 [invoked]. *)
Definition dx_invoked (x : dx) : option dx :=
  if d_inv x =? 0 then None else Some (mkDx (d_epoch x) (d_gen x) (d_s x) (d_e x) (d_min x) (d_inv x - 1) (d_len x)).
(** crypto.rs:589-593 [should_update]. *)
Definition dx_should_update (x : dx) : bool := d_inv x <=? UPDATE_WRITE_KEYS_AT.
(** crypto.rs:595-624 [next]; [gen] is the secret given. *)
Definition dx_next (d : dir) (c : cipher) (gen : N) (x : dx) : dx :=
  mkDx (d_epoch x + 1) gen (d_e x) (d_e x) (d_e x) (match d with DRead => d_inv x | DWrite => limit DWrite c end) INITIAL_LARGEST.
(** crypto.rs:631-634 [key_phase]. *)
Definition dx_phase (x : dx) : bool := N.even (d_epoch x).
(** crypto.rs:642-662 [continuation]; [min_pn] is set even when it fails. *)
Definition dx_continue (x prev : dx) : dx * bool :=
  let n := d_e prev in
  if negb (d_s x <? d_e x) then (mkDx (d_epoch x) (d_gen x) n n n (d_inv x) (d_len x), true)
  else if d_s x <? d_e prev then (mkDx (d_epoch x) (d_gen x) (d_s x) (d_e x) n (d_inv x) (d_len x), false)
  else (mkDx (d_epoch x) (d_gen x) n (d_e x) n (d_inv x) (d_len x), true).
(** crypto.rs:667-681 [used]: outer [None] is overflow, inner a packet number too low. *)
Definition dx_used (pn : N) (x : dx) : option (option dx) :=
  if pn <? d_min x then Some None
  else match chk (pn + 1) with
       | None => None
       | Some e => Some (Some (mkDx (d_epoch x) (d_gen x) (if d_s x =? d_e x then pn else d_s x) (N.max e (d_e x)) (d_min x) (d_inv x) (d_len x)))
       end.
(** crypto.rs:684-689 [needs_update]. *)
Definition dx_needs_update (x : dx) : bool := (d_s x + 1 =? d_e x) && (3 <? d_epoch x).
(** crypto.rs:692-697 [can_update]. *)
Definition dx_can_update (la : option N) (x : dx) : bool :=
  match la with None => d_epoch x =? 3 | Some n => (d_s x <=? n) && (n <? d_e x) end.
(** crypto.rs:714-748 [encrypt] of the packet numbered [next_pn]; [body] is [body_len].  The difference of the
    leading zeros is that of the logarithms. *)
Definition dx_encrypt (body : N) (x : dx) : option (dx * (N + kerr)) :=
  let x1 := if d_len x <? body
            then mkDx (d_epoch x) (d_gen x) (d_s x) (d_e x) (d_min x) (N.shiftr (d_inv x) (N.log2 (body - 1) - N.log2 (d_len x - 1))) body
            else x in
  match dx_invoked x1 with
  | None => Some (x1, inr EExhausted)
  | Some x2 =>
      match dx_used (d_e x) x2 with
      | None => None
      | Some None => Some (x2, inr EOverlap)
      | Some (Some x3) => Some (x3, inl (d_e x))
      end
  end.
(** crypto.rs:755-772 [decrypt] of packet [pn] sealed with generation [sealed] ([None]: not a genuine packet). *)
Definition dx_decrypt (pn : N) (sealed : option N) (x : dx) : option (dx * option kerr) :=
  match dx_invoked x with
  | None => Some (x, Some EExhausted)
  | Some x1 =>
      if match sealed with Some g => g =? d_gen x | None => false end then
        match dx_used pn x1 with
        | None => None
        | Some None => Some (x1, Some EOverlap)
        | Some (Some x2) => Some (x2, None)
        end
      else Some (x1, Some EDecrypt)
  end.

(** crypto.rs:811-817 [CryptoDxAppData]; [a_secret]: [next_secret]. *)
Record app := mkApp { a_dx : dx; a_secret : N }.
(** crypto.rs:819-831 [new]. *)
Definition app_new (d : dir) (c : cipher) : app := mkApp (dx_new d c 3) 1.
(** crypto.rs:838-850 [next]; [None]: too many updates. *)
Definition app_next (d : dir) (c : cipher) (a : app) : option app :=
  if d_epoch (a_dx a) =? 2 ^ 64 - 1 then None
  else Some (mkApp (dx_next d c (a_secret a) (a_dx a)) (a_secret a + 1)).
Definition with_dx (x : dx) (a : app) : app := mkApp x (a_secret a).

(** crypto.rs:862-880 [CryptoStates] without the Initial and Handshake keys.  [k_time]: [read_update_time];
    [k_upd]: [read_update_epoch]. *)
Record kst := mkK {
  k_cipher : cipher; k_zero : option (dir * dx); k_write : option app; k_read : option app; k_next : option app;
  k_time : option N; k_upd : option N }.
Definition k_new (c : cipher) : kst := mkK c None None None None None None.
Definition with_zero z (s : kst) := mkK (k_cipher s) z (k_write s) (k_read s) (k_next s) (k_time s) (k_upd s).
Definition with_write w (s : kst) := mkK (k_cipher s) (k_zero s) w (k_read s) (k_next s) (k_time s) (k_upd s).
Definition with_read r (s : kst) := mkK (k_cipher s) (k_zero s) (k_write s) r (k_next s) (k_time s) (k_upd s).
Definition with_next n (s : kst) := mkK (k_cipher s) (k_zero s) (k_write s) (k_read s) n (k_time s) (k_upd s).
Definition with_time t (s : kst) := mkK (k_cipher s) (k_zero s) (k_write s) (k_read s) (k_next s) t (k_upd s).
Definition with_upd u (s : kst) := mkK (k_cipher s) (k_zero s) (k_write s) (k_read s) (k_next s) (k_time s) u.

(** crypto.rs:1308-1312 [has_0rtt_read]. *)
Definition has_0rtt_read (s : kst) : bool := match k_zero s with Some (DRead, _) => true | _ => false end.

(** crypto.rs:1208-1221 [set_application_write_key].  [dbg]: debug assertions are on; [None] is a panic. *)
Definition set_write (s : kst) : option (kst * option kerr) :=
  match k_write s with
  | Some _ => None
  | None =>
      let a := app_new DWrite (k_cipher s) in
      match k_zero s with
      | Some (DWrite, z) =>
          let (x, ok) := dx_continue (a_dx a) z in
          if ok then Some (with_write (Some (with_dx x a)) (with_zero None s), None) else Some (s, Some EOverlap)
      | _ => Some (with_write (Some a) (with_zero None s), None)
      end
  end.
(** crypto.rs:1223-1243 [set_application_read_key]. *)
Definition set_read (expire : N) (s : kst) : option (kst * option kerr) :=
  match k_write s, k_read s with
  | Some _, None =>
      let a := app_new DRead (k_cipher s) in
      let '(x, ok) := match k_zero s with Some (DRead, z) => dx_continue (a_dx a) z | _ => (a_dx a, true) end in
      if negb ok then Some (s, Some EOverlap)
      else
        let a' := with_dx x a in
        let s1 := match k_zero s with Some _ => with_time (Some expire) s | None => s end in
        match app_next DRead (k_cipher s) a' with
        | None => Some (s1, Some EExhausted)
        | Some n => Some (with_read (Some a') (with_next (Some n) s1), None)
        end
  | _, _ => None
  end.
(** crypto.rs:1275-1291 [maybe_update_write]: whether it happened. *)
Definition maybe_update_write (dbg : bool) (s : kst) : option (kst * (bool + kerr)) :=
  if dbg && (match k_time s with Some _ => true | None => false end) then None
  else match k_write s, k_read s with
       | Some w, Some r =>
           if d_epoch (a_dx w) =? d_epoch (a_dx r) then
             match app_next DWrite (k_cipher s) w with
             | None => Some (s, inr EExhausted)
             | Some w' => Some (with_write (Some w') s, inl true)
             end
           else Some (s, inl false)
       | _, _ => Some (s, inr EInternalK)
       end.
(** crypto.rs:1246-1272 [initiate_key_update]. *)
Definition initiate (dbg : bool) (la : option N) (s : kst) : option (kst * option kerr) :=
  match k_write s with
  | None => Some (s, Some EInternalK)
  | Some w =>
      if dx_can_update la (a_dx w) && (match k_time s with None => true | Some _ => false end) then
        match maybe_update_write dbg s with
        | None => None
        | Some (s', inr e) => Some (s', Some e)
        | Some (s', inl b) => Some (s', if b then None else Some EBlocked)
        end
      else Some (s, Some EBlocked)
  end.
(** crypto.rs:1296-1308 [auto_update]. *)
Definition auto_update (dbg : bool) (s : kst) : option (kst * option kerr) :=
  match k_write s with
  | Some w =>
      if dx_should_update (a_dx w) then
        match maybe_update_write dbg s with
        | None => None
        | Some (s', inr e) => Some (s', Some e)
        | Some (s', inl b) => Some (s', if b then None else Some EExhausted)
        end
      else Some (s, None)
  | None => Some (s, None)
  end.
(** crypto.rs:1319-1348 [key_update_received]. *)
Definition update_received (dbg : bool) (epoch expiration : N) (s : kst) : option (kst * option kerr) :=
  if match k_upd s with Some e => epoch <=? e | None => false end then Some (s, None)
  else
    let s1 := with_upd (Some epoch) s in
    match maybe_update_write dbg s1 with
    | None => None
    | Some (s2, inr e) => Some (s2, Some e)
    | Some (s2, inl _) =>
        if dbg && negb (Bool.eqb (match k_time s2 with Some _ => true | None => false end) (has_0rtt_read s2)) then None
        else Some (with_time (Some expiration) (if has_0rtt_read s2 then with_zero None s2 else s2), None)
    end.
(** crypto.rs:1358-1377 [check_key_update]. *)
Definition check_update (now : N) (s : kst) : option (kst * option kerr) :=
  match k_time s with
  | Some t =>
      if t <=? now then
        if has_0rtt_read s then Some (with_time None (with_zero None s), None)
        else
          let s1 := with_next (k_read s) (with_read (k_next s) s) in
          match k_read s1 with
          | None => Some (s1, Some EInternalK)
          | Some r =>
              match app_next DRead (k_cipher s) r with
              | None => Some (s1, Some EExhausted)
              | Some n => Some (with_time None (with_next (Some n) s1), None)
              end
          end
      else Some (s, None)
  | None => Some (s, None)
  end.
(** crypto.rs:1391-1400 [check_pn_overlap]. *)
Definition check_overlap (s : kst) : kst * option kerr :=
  match k_time s with
  | None => (s, None)
  | Some _ =>
      match k_next s, k_read s with
      | Some n, Some r => let (x, ok) := dx_continue (a_dx n) (a_dx r) in (with_next (Some (with_dx x n)) s, if ok then None else Some EOverlap)
      | _, _ => (s, Some EInternalK)
      end
  end.
(** crypto.rs:1013-1035 [rx] for 1-RTT packets: which of the two read keys; the [xor] of the two filters. *)
Inductive which := WRead | WNext.
Definition rx_app (phase : bool) (s : kst) : option which :=
  let f a := match a with Some a => Bool.eqb (dx_phase (a_dx a)) phase | None => false end in
  match f (k_read s), f (k_next s) with true, false => Some WRead | false, true => Some WNext | _, _ => None end.

(** What the caller sees: a packet sent or accepted (its epoch, key generation and number), a packet that does not open
    under the key of an epoch, an error, or nothing. *)
Inductive kout := OSent (epoch gen pn body : N) | ORecv (epoch gen pn : N) | OFailed (epoch : N) | OErrK (e : kerr) | ODoneK.

(** connection/mod.rs:2368, 2885: a 1-RTT or 0-RTT packet is built with the selected write key (crypto.rs:887-952),
    then [auto_update].  A failing [auto_update] loses the packet. *)
Definition k_send (dbg : bool) (body : N) (s : kst) : option (kst * kout) :=
  let finish s' r :=
    match r with
    | inr e => Some (s', OErrK e)
    | inl (ep, g, pn) => match auto_update dbg s' with None => None | Some (s2, None) => Some (s2, OSent ep g pn body) | Some (s2, Some e) => Some (s2, OErrK e) end
    end in
  match k_write s with
  | Some w =>
      match dx_encrypt body (a_dx w) with
      | None => None
      | Some (x, r) =>
          finish (with_write (Some (with_dx x w)) s) (match r with inl pn => inl (d_epoch x, d_gen x, pn) | inr e => inr e end)
      end
  | None =>
      match k_zero s with
      | Some (DWrite, z) =>
          match dx_encrypt body z with
          | None => None
          | Some (x, r) => finish (with_zero (Some (DWrite, x)) s) (match r with inl pn => inl (d_epoch x, d_gen x, pn) | inr e => inr e end)
          end
      | Some (DRead, _) => Some (s, OErrK EInternalK)
      | None => Some (s, ODoneK)
      end
  end.
Definition recv_err (x : dx) (e : kerr) : kout := match e with EDecrypt => OFailed (d_epoch x) | _ => OErrK e end.
(** packet/mod.rs:978-1000, the end of [decrypt] once the packet is open under [x]. *)
Definition finish_recv (dbg reserved_ok : bool) (release : N) (x : dx) (pn : N) (s : kst) : option (kst * kout) :=
  if negb reserved_ok then Some (s, OErrK EViolationK)
  else
    match (if dx_needs_update x then update_received dbg (d_epoch x) release s else Some (s, None)) with
    | None => None
    | Some (s1, Some e) => Some (s1, OErrK e)
    | Some (s1, None) =>
        match check_overlap s1 with
        | (s2, Some e) => Some (s2, OErrK e)
        | (s2, None) => Some (s2, ORecv (d_epoch x) (d_gen x) pn)
        end
    end.
(** packet/mod.rs:927-1008 [decrypt] of a 1-RTT packet whose header is already open.  [phase] and [pn] are the
    header's, [sealed] the generation it was sealed with, [release] the time given by connection/mod.rs:1859. *)
Definition k_recv (dbg phase : bool) (pn : N) (sealed : option N) (reserved_ok : bool) (release : N) (s : kst) : option (kst * kout) :=
  match k_read s with
  | None => Some (s, OErrK EPending)
  | Some r =>
      match rx_app phase s with
      | None => Some (s, OErrK EDecrypt)
      | Some WRead =>
          match dx_decrypt pn sealed (a_dx r) with
          | None => None
          | Some (x, Some e) => Some (with_read (Some (with_dx x r)) s, recv_err x e)
          | Some (x, None) => finish_recv dbg reserved_ok release x pn (with_read (Some (with_dx x r)) s)
          end
      | Some WNext =>
          match k_next s with
          | None => None
          | Some n =>
              match dx_decrypt pn sealed (a_dx n) with
              | None => None
              | Some (x, Some e) => Some (with_next (Some (with_dx x n)) s, recv_err x e)
              | Some (x, None) => finish_recv dbg reserved_ok release x pn (with_next (Some (with_dx x n)) s)
              end
          end
      end
  end.
(** The same of a 0-RTT packet (crypto.rs:1021-1024, 1048-1054). *)
Definition k_recv0 (dbg : bool) (pn : N) (sealed : option N) (reserved_ok : bool) (release : N) (s : kst) : option (kst * kout) :=
  match k_zero s with
  | Some (DRead, z) =>
      match dx_decrypt pn sealed z with
      | None => None
      | Some (x, Some e) => Some (with_zero (Some (DRead, x)) s, recv_err x e)
      | Some (x, None) => finish_recv dbg reserved_ok release x pn (with_zero (Some (DRead, x)) s)
      end
  | _ => Some (s, OErrK EDiscarded)
  end.

(** What the connection does, in any order.  crypto.rs:1148-1167 [set_0rtt_keys]: connection/mod.rs:3036 calls it once at a
    client before the handshake, 1770 once at a server before it is complete.  [KSetWrite true]: connection/mod.rs:3704-3711,
    crypto.rs:1181-1188 [discard_0rtt_keys], which the client calls just before its write keys when 0-RTT was rejected. *)
Inductive kop :=
| KZero (d : dir)
| KSetWrite (rejected : bool)
| KSetRead (expire : N)
| KSend (body : N)
| KRecv (phase : bool) (pn : N) (sealed : option N) (reserved_ok : bool) (release : N)
| KRecv0 (pn : N) (sealed : option N) (reserved_ok : bool) (release : N)
| KInitiate (la : option N)
| KAuto
| KTimer (now : N).
Definition res_out (r : option (kst * option kerr)) : option (kst * kout) :=
  match r with None => None | Some (s, None) => Some (s, ODoneK) | Some (s, Some e) => Some (s, OErrK e) end.
(** [None]: a panic, or a call the connection does not make (0-RTT keys twice or after 1-RTT ones). *)
Definition k_step (dbg : bool) (o : kop) (s : kst) : option (kst * kout) :=
  match o with
  | KZero d =>
      match d, k_zero s, k_write s, k_read s with
      | DWrite, None, None, None | DRead, None, _, None => Some (with_zero (Some (d, dx_new d (k_cipher s) 1)) s, ODoneK)
      | _, _, _, _ => None
      end
  | KSetWrite rejected => res_out (set_write (if rejected then with_zero None s else s))
  | KSetRead e => res_out (set_read e s)
  | KSend b => k_send dbg b s
  | KRecv ph pn g ok t => k_recv dbg ph pn g ok t s
  | KRecv0 pn g ok t => k_recv0 dbg pn g ok t s
  | KInitiate la => res_out (initiate dbg la s)
  | KAuto => res_out (auto_update dbg s)
  | KTimer now => res_out (check_update now s)
  end.
(** connection/mod.rs:1915-1920, 1000-1040: these errors close the connection; after that it only sends CONNECTION_CLOSE. *)
Definition fatal (x : kout) : bool := match x with OErrK EExhausted | OErrK EViolationK | OErrK EInternalK => true | _ => false end.
Fixpoint k_run (dbg closed : bool) (os : list kop) (s : kst) : option (kst * list kout) :=
  match os with
  | [] => Some (s, [])
  | o :: os' =>
      if closed && match o with KSend _ => false | _ => true end then k_run dbg closed os' s
      else
        match k_step dbg o s with
        | None => None
        | Some (s1, x) => match k_run dbg (closed || fatal x) os' s1 with None => None | Some (s2, xs) => Some (s2, x :: xs) end
        end
  end.
