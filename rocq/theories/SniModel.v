(** Model of the server name search (neqo-transport/src/sni.rs) and of how the ClientHello
    is cut into CRYPTO frames around it (neqo-transport/src/crypto.rs, [write_frame]). *)
From Verif Require Import Base CodecModel.

(** sni.rs:15-22 [skip]: [None] when too little is left. [Decoder::skip] would panic
    there; the check keeps that from happening, so [dec_skip] is used as is and the outer
    option is a panic. *)
Definition sni_skip (n : nat) (d : decoder) : option (option decoder) :=
  if Nat.ltb (dec_remaining d) n then Some None
  else match dec_skip n d with Some d' => Some (Some d') | None => None end.

(** sni.rs:24-32 [skip_vec::<T>], [T] of [k] bytes. *)
Definition sni_skip_vec (k : nat) (d : decoder) : option (option decoder) :=
  match dec_uint k d with
  | (None, _) => Some None
  | (Some len, d1) => sni_skip (N.to_nat len) d1
  end.

(** Sequencing for "panic or early return or go on". *)
Definition sbind {A B} (x : option (option A)) (f : A -> option (option B)) : option (option B) :=
  match x with
  | None => None
  | Some None => Some None
  | Some (Some a) => f a
  end.

(** sni.rs:47-70, the loop over extensions.  Each turn reads at least four bytes, so
    [fuel] = number of bytes is enough; running out of fuel is shown not to happen. *)
Fixpoint sni_exts (fuel : nat) (blen : nat) (d : decoder) : option (option (nat * nat)) :=
  match fuel with
  | O => None
  | S f =>
      if Nat.ltb (dec_remaining d) 4 then Some None
      else
        match dec_uint 2 d with
        | (None, _) => Some None
        | (Some ty, d1) =>
            match dec_uint 2 d1 with
            | (None, _) => Some None
            | (Some el, d2) =>
                if ty =? 0 then
                  match dec_uint 2 d2 with
                  | (None, _) => Some None
                  | (Some sl, d3) =>
                      if sl <? 3 then Some None
                      else sbind (sni_skip 3 d3) (fun d4 =>
                        let start := doff d4 in
                        let en := (start + N.to_nat sl - 3)%nat in
                        if Nat.ltb (doff d4 + dec_remaining d4) en then Some None
                        (* sni.rs:61: [&buf[start..end]] panics outside the buffer *)
                        else if (Nat.leb start en && Nat.leb en blen)%bool
                             then Some (Some (start, en)) else None)
                  end
                else sbind (sni_skip (N.to_nat el) d2) (fun d3 => sni_exts f blen d3)
            end
        end
  end.

(** sni.rs:13-72 [find_sni]; the outer [None] is a panic (or the loop not ending). *)
Definition find_sni (buf : list N) : option (option (nat * nat)) :=
  let d := dec_new buf in
  if Nat.eqb (length buf) 0 then Some None
  else
    match dec_uint 1 d with
    | (None, _) => Some None
    | (Some t, d1) =>
        if negb (t =? 1) then Some None
        else sbind (sni_skip (3 + 2 + 32) d1) (fun d2 =>
             sbind (sni_skip_vec 1 d2) (fun d3 =>
             sbind (sni_skip_vec 2 d3) (fun d4 =>
             sbind (sni_skip_vec 1 d4) (fun d5 =>
             sbind (sni_skip 2 d5) (fun d6 =>
             sni_exts (S (length buf)) (length buf) d6)))))
    end.

(* ------------------------------------------------------------------ *)
(** ** Cutting the ClientHello *)

(** A chunk of handshake data: its offset in the stream and its bytes. *)
Definition chunk := (N * list N)%type.

(** crypto.rs:1671-1698 [limit_chunks]. *)
Definition limit_chunks (l r : chunk) (limit : nat) : chunk * chunk :=
  let '(lo, lb) := l in
  let '(ro, rb) := r in
  let nl := length lb in
  let nr := length rb in
  if Nat.leb (nl + nr) limit then ((lo, lb), (ro, rb))
  else if Nat.leb nl limit then
    let k := (nr + nl - limit)%nat in
    ((lo, lb), (ro + N.of_nat k, skipn k rb))
  else if Nat.leb nr limit then
    ((lo, firstn (limit - nr) lb), (ro, rb))
  else ((lo, firstn (limit / 2) lb), (ro, firstn (limit / 2) rb)).

(** crypto.rs:1615-1641 [write_chunk] with [room] bytes left in the packet: the frame
    written (offset, data, size of the frame), if any.  [None] outside is a panic
    ([varint_len] of an offset of 2^62 or more). *)
Definition write_chunk (room : N) (c : chunk) : option (option (N * list N * N)) :=
  let '(offset, data) := c in
  match varint_len offset with
  | None => None
  | Some vo =>
      let header_len := 1 + vo + 1 in
      if room <? header_len + 1 then Some None
      else
        let l0 := N.min (lenN data) (room - header_len) in
        match varint_len l0 with
        | None => None
        | Some vl =>
            let h2 := header_len + (vl - 1) in
            if room <? h2 then None (* usize underflow *)
            else
              let l1 := N.min (lenN data) (room - h2) in
              match varint_len l1 with
              | None => None
              | Some vl1 => Some (Some (offset, firstnN l1 data, 1 + vo + vl1 + l1))
              end
        end
  end.

(** crypto.rs:1703-1730 (in [write_frame]): one turn of the loop, for unsent data at
    [offset].  [limit] is the packet limit, [room] what is left.  The result lists the
    frames written in order; [None] is a panic. *)
Definition crypto_turn (sni_slicing : bool) (limit room : N) (offset : N) (data : list N)
  : option (list (N * list N * N)) :=
  let whole :=
    match write_chunk room (offset, data) with
    | None => None
    | Some None => Some []
    | Some (Some w) => Some [w]
    end in
  if sni_slicing && (offset =? 0) then
    match find_sni data with
    | None => None
    | Some None => whole
    | Some (Some (s, e)) =>
        let mid := (s + (e - s) / 2)%nat in
        if Nat.ltb (length data) mid then None (* split_at panics *)
        else if limit =? 0 then None (* division by zero *)
        else
          let needed := ((length data + N.to_nat limit - 1) / N.to_nat limit)%nat in
          if Nat.eqb needed 0 then None (* division by zero *)
          else
            let lim := (length data / needed)%nat in
            let '(l, r) := limit_chunks (offset, firstn mid data)
                                        (offset + N.of_nat mid, skipn mid data) lim in
            match write_chunk room r with
            | None => None
            | Some wr =>
                let room2 := match wr with Some (_, _, n) => room - n | None => room end in
                match write_chunk room2 l with
                | None => None
                | Some wl =>
                    Some (match wr with Some w => [w] | None => [] end ++
                          match wl with Some w => [w] | None => [] end)
                end
            end
    end
  else whole.
