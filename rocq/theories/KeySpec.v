(** What C37 and C78 say, over what the caller sees. *)
From Verif Require Import Base KeyModel.

(** 1-RTT keys are those of epoch 3 and later; epoch 3 is generation 0. *)
Definition GEN0 : N := 3.
(** Everything sent, in order: epoch, generation, packet number. *)
Definition sent (xs : list kout) : list (N * N * N) := flat_map (fun x => match x with OSent e g p _ => [(e, g, p)] | _ => [] end) xs.
(** The 1-RTT packets accepted: epoch and packet number. *)
Definition accepted (xs : list kout) : list (N * N) := flat_map (fun x => match x with ORecv e _ p => if GEN0 <=? e then [(e, p)] else [] | _ => [] end) xs.
(** How many of the outputs satisfy [f]. *)
Definition count (f : kout -> bool) (xs : list kout) : N := lenN (filter f xs).
Definition sent_with (e : N) (x : kout) : bool := match x with OSent e' _ _ _ => e =? e' | _ => false end.
(** Packets with a body longer than [b]. *)
Definition sent_longer (e b : N) (x : kout) : bool := match x with OSent e' _ _ n => (e =? e') && (b <? n) | _ => false end.
Definition opened_or_failed (e : N) (x : kout) : bool := match x with ORecv e' _ _ | OFailed e' => e =? e' | _ => false end.
Definition failed_any (x : kout) : bool := match x with OFailed _ => true | _ => false end.
(** The keys an endpoint holds: the epochs of the write, read and next read keys. *)
Definition epoch_of (a : option app) : option N := match a with Some a => Some (d_epoch (a_dx a)) | None => None end.
Definition gen_of (a : option app) : option N := match a with Some a => Some (d_gen (a_dx a)) | None => None end.
(** 0-RTT is not rejected in these steps. *)
Definition not_rejected (o : kop) : Prop := match o with KSetWrite b => b = false | _ => True end.
(** The peer's packet numbers are below 2^62 (RFC 9000, 12.3). *)
Definition pn_ok (o : kop) : Prop := match o with KRecv _ pn _ _ _ | KRecv0 pn _ _ _ => pn < 2 ^ 62 | _ => True end.
(** A step that installs keys. *)
Definition installs (o : kop) : bool := match o with KZero _ | KSetWrite _ | KSetRead _ => true | _ => false end.
(** RFC 9001, 6.6: how many packets one key may protect, and how many forgeries it may face; no limit is 2^64 - 1. *)
Definition confidentiality (c : cipher) : N := match c with Aes128 | Aes256 => 2 ^ 28 | ChaCha => 2 ^ 64 - 1 end.
Definition integrity (c : cipher) : N := match c with Aes128 => 2 ^ 52 | ChaCha => 2 ^ 36 | Aes256 => 2 ^ 64 - 1 end.
