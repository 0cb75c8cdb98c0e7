(** Vocabulary for the statements in CodecProps.v: sequences of decoder calls, and the
    loop with which a caller drives an incremental decoder. *)
From Verif Require Import Base CodecModel.

(** A read position inside the buffer: every decoder reachable from [Decoder::new]
    ([druns_safe] shows it is preserved). *)
Definition dec_wf (d : decoder) : Prop := (doff d <= length (dbuf d))%nat.

(** How many bytes the varint at the head of [rest] occupies (RFC 9000, 16). *)
Definition varint_need (rest : list N) : nat :=
  match rest with
  | [] => 1%nat
  | b :: _ => if b <? 64 then 1%nat else if b <? 128 then 2%nat
              else if b <? 192 then 4%nat else 8%nat
  end.

(** One call to each public read of [Decoder]; [None] is a panic. *)
Inductive dcall :=
| DSkip (n : nat) | DSkipWhile (p : N) | DPeek | DBytes (n : nat) | DUint (n : nat)
| DVarint | DRemainder | DVec (n : nat) | DVvec.

Inductive dout := OUnit | ONum (v : option N) | OBytes (v : option (list N)) | OCount (n : option nat).

Definition dstep (c : dcall) (d : decoder) : option (dout * decoder) :=
  match c with
  | DSkip n => match dec_skip n d with Some d' => Some (OUnit, d') | None => None end
  | DSkipWhile p => let '(o, d') := dec_skip_while p d in Some (OCount o, d')
  | DPeek => Some (ONum (dec_peek d), d)
  | DBytes n => let '(o, d') := dec_bytes n d in Some (OBytes o, d')
  | DUint n => let '(o, d') := dec_uint n d in Some (ONum o, d')
  | DVarint => let '(o, d') := dec_varint d in Some (ONum o, d')
  | DRemainder => let '(o, d') := dec_remainder d in Some (OBytes (Some o), d')
  | DVec n => let '(o, d') := dec_vec n d in Some (OBytes o, d')
  | DVvec => let '(o, d') := dec_vvec d in Some (OBytes o, d')
  end.

(** Run a sequence of calls, stopping (None) at a panic. *)
Fixpoint druns (cs : list dcall) (d : decoder) : option (list dout * decoder) :=
  match cs with
  | [] => Some ([], d)
  | c :: r =>
      match dstep c d with
      | None => None
      | Some (o, d1) =>
          match druns r d1 with Some (os, d2) => Some (o :: os, d2) | None => None end
      end
  end.

(** What a caller of an incremental decoder does with a stream arriving in chunks:
    hand over what is there until a value comes out or the chunk is used up, then wait
    for the next chunk. *)
Inductive feed_result (V S : Type) :=
| Done (v : V) (lft : list N)   (* a value, and the bytes not consumed *)
| Pending (s : S)
| Panic.
Arguments Done {V S}. Arguments Pending {V S}. Arguments Panic {V S}.

Section Feed.
  Context {V S : Type}.
  Variable consume : S -> decoder -> option (option V * S * decoder).
  Fixpoint feed_chunk (fuel : nat) (s : S) (d : decoder) : feed_result V S :=
    if Nat.eqb (dec_remaining d) 0 then Pending s
    else match fuel with
         | O => Pending s
         | Datatypes.S f =>
             match consume s d with
             | None => Panic
             | Some (Some v, _, d') => Done v (dec_rest d')
             | Some (None, s', d') => feed_chunk f s' d'
             end
         end.
  Fixpoint feed (s : S) (chunks : list (list N)) : feed_result V S :=
    match chunks with
    | [] => Pending s
    | c :: r =>
        match feed_chunk (length c) s (dec_new c) with
        | Pending s' => feed s' r
        | Done v lft => Done v (lft ++ concat r)
        | Panic => Panic
        end
    end.
End Feed.

Definition feed_uint := feed iu_consume.
Definition feed_buf := feed (fun s d => Some (ib_consume s d)).
Definition feed_ignore :=
  feed (fun s d => let '(fin, s', d') := ii_consume s d in Some (if fin then Some tt else None, s', d')).

