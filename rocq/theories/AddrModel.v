(** Model of address validation: neqo-transport/src/addr_valid.rs. *)
From Verif Require Import Base Lib.

(** addr_valid.rs:31-36 *)
Definition ID_RETRY : list N := [82; 101; 116; 114; 121].
Definition ID_NEW : list N := [173; 154; 139; 141; 134].
Definition MAX_NEW_TOKEN : N := 4.
Definition MAX_SAVED_TOKENS : N := 8.
(** addr_valid.rs:48-64 [ValidateAddress], [AddressValidationResult]; [VPanic] stands for a panic. *)
Inductive policy := Never | NoToken | Always.
Inductive vresult := Pass | ValidRetry (cid : list N) | Validate | Invalid | VPanic.
(** A socket address. *)
Inductive ip := V4 (o : list N) | V6 (o : list N).
Record addr := mkAddr { a_ip : ip; a_port : N }.
(** addr_valid.rs:81-102 [encode_aad]. *)
Definition encode_aad (a : addr) (retry : bool) : list N :=
  (if retry then ID_RETRY else ID_NEW) ++
  (match a_ip a with V4 o => 4 :: o | V6 o => 6 :: o end) ++
  (if retry then [a_port a / 256; a_port a mod 256] else []).
(** neqo-common/src/codec.rs [encode_uint] of four bytes. *)
Definition be4 (n : N) : list N := [n / 16777216; n / 65536 mod 256; n / 256 mod 256; n mod 256].
Definition un4 (a b c d : N) : N := a * 16777216 + b * 65536 + c * 256 + d.
(** Times are nanoseconds. *)
Definition MS : N := 1000000.
Definition EXP_RETRY : N := 5000 * MS.
Definition EXP_NEW : N := 86400000 * MS.
(** addr_valid.rs:104-149 [generate_token]: the plain text, or an error if the time does not fit
    32 bits of milliseconds. *)
Definition token_data (start : N) (dcid : option (list N)) (now : N) : option (list N) :=
  let fin := now + match dcid with Some _ => EXP_RETRY | None => EXP_NEW end in
  let ms := (fin - start) / MS in
  if ms <? 4294967296 then Some (be4 ms ++ match dcid with Some c => c | None => [] end) else None.
(** The token: an identifier, then what was sealed. *)
Definition token_of (dcid : option (list N)) (sealed : list N) : list N := (match dcid with Some _ => ID_RETRY | None => ID_NEW end) ++ sealed.
(** addr_valid.rs:177-199 [decrypt_token]; [open] is the authenticated decryption. *)
Definition decrypt (open : list N -> list N -> option (list N)) (start : N) (enc : list N) (a : addr) (retry : bool) (now : N) : option (list N) :=
  match open (encode_aad a retry) enc with
  | Some (b0 :: b1 :: b2 :: b3 :: cid) => if start + un4 b0 b1 b2 b3 * MS <? now then None else Some cid
  | _ => None
  end.
(** [u8::count_ones] *)
Fixpoint ones (k : nat) (n : N) : N := match k with O => 0 | S k' => n mod 2 + ones k' (n / 2) end.
(** addr_valid.rs:204-215 [is_likely_retry]. *)
Fixpoint distance (a b : list N) : N := match a, b with x :: a', y :: b' => ones 8 (N.lxor x y) + distance a' b' | _, _ => 0 end.
Definition likely_retry (token : list N) : bool := distance token ID_RETRY <? 5.
(** addr_valid.rs:217-281 [validate]. *)
Definition validate (open : list N -> list N -> option (list N)) (p : policy) (start : N) (token : list N) (a : addr) (now : N) : vresult :=
  match token with
  | [] => match p with Never => Pass | _ => Validate end
  | _ =>
      if lenN token <=? 5 then Invalid
      else
        let retry := likely_retry token in
        match decrypt open start (skipn 5 token) a retry now with
        | Some cid =>
            if retry then (if 8 <=? lenN cid then ValidRetry cid else VPanic)
            else match cid with [] => (match p with Always => Validate | _ => Pass end) | _ => VPanic end
        | None => if retry then Invalid else match p with Never => Pass | _ => Validate end
        end
  end.

(** * Tokens kept by a client *)
(** addr_valid.rs:284-290 [NewTokenState::Client]: tokens to use, and tokens used. *)
Record client := mkCl { c_pending : list (list N); c_old : list (list N) }.
Definition cl_new : client := mkCl [] [].
Definition tok_eqb (a b : list N) : bool := if list_eq_dec N.eq_dec a b then true else false.
(** addr_valid.rs:313-326 [take_token]: the last one saved. *)
Definition cl_take (c : client) : client * option (list N) :=
  match rev (c_pending c) with
  | [] => (c, None)
  | t :: r => (mkCl (rev r) ((if MAX_SAVED_TOKENS <=? lenN (c_old c) then tl (c_old c) else c_old c) ++ [t]), Some t)
  end.
(** addr_valid.rs:328-345 [save_token]. *)
Definition cl_save (t : list N) (c : client) : client :=
  if existsb (tok_eqb t) (c_old c) || existsb (tok_eqb t) (c_pending c) then c
  else mkCl ((if MAX_NEW_TOKEN <=? lenN (c_pending c) then tl (c_pending c) else c_pending c) ++ [t]) (c_old c).
Inductive clop := CSave (t : list N) | CTake.
(** The state and the tokens used, in order. *)
Definition cl_step (c : client) (o : clop) : client * list (list N) :=
  match o with CSave t => (cl_save t c, []) | CTake => let '(c', r) := cl_take c in (c', match r with Some t => [t] | None => [] end) end.
Fixpoint cl_run (c : client) (ops : list clop) : client * list (list N) :=
  match ops with [] => (c, []) | o :: ops' => let '(c1, l) := cl_step c o in let '(c2, l') := cl_run c1 ops' in (c2, l ++ l') end.
