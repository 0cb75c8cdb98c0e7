(** C01-C03: the byte codec. *)
From Verif Require Import Base Lib CodecModel Reader CodecSpec CodecProofs IncrProofs.

(** ** C01 *)

(** Encoding appends exactly [varint_len v] bytes, and decoding them in front of anything
    returns [v] and stops right after them. *)
Theorem varint_round_trip : forall v e, v < 2 ^ 62 ->
  exists l, enc_varint v e = Some (enc_bytes l e) /\ varint_len v = Some (lenN l) /\ bytes_ok l /\
    forall before after, bytes_ok before -> bytes_ok after ->
      dec_varint (mkDec (before ++ l ++ after) (length before))
      = (Some v, mkDec (before ++ l ++ after) (length before + length l)).
Proof. exact varint_round_trip_lemma. Qed.
Print Assumptions varint_round_trip.

(** The reported length is the least of 1, 2, 4, 8 whose 8k-2 value bits can hold [v]. *)
Theorem varint_len_minimal : forall v, v < 2 ^ 62 ->
  exists k, varint_len v = Some k /\ In k [1;2;4;8] /\ v < 2 ^ (8 * k - 2) /\
    forall k', In k' [1;2;4;8] -> v < 2 ^ (8 * k' - 2) -> k <= k'.
Proof. exact varint_minimal_lemma. Qed.
Print Assumptions varint_len_minimal.

Theorem varint_decoded_in_range : forall d v d',
  dec_wf d -> bytes_ok (dbuf d) -> dec_varint d = (Some v, d') -> v < 2 ^ 62.
Proof. exact varint_decoded_range. Qed.
Print Assumptions varint_decoded_in_range.

Theorem varint_too_large_refused : forall v e, 2 ^ 62 <= v -> enc_varint v e = None /\ varint_len v = None.
Proof. exact varint_refused_lemma. Qed.
Print Assumptions varint_too_large_refused.

Example varint_ex :
  enc_varint 494878333 (enc_new [7]) = Some (mkEnc [7; 157; 127; 62; 125] 1) /\
  dec_varint (mkDec [7; 157; 127; 62; 125; 9] 1) = (Some 494878333, mkDec [7; 157; 127; 62; 125; 9] 5) /\
  494878333 < 2 ^ 62 /\ varint_len 494878333 = Some 4.
Proof. repeat split; vm_compute; reflexivity. Qed.

(** ** C02 *)

(** Any sequence of reads keeps the buffer, moves the position forward inside it, and so
    what is left is a suffix of what was left. *)
Theorem decoder_stays_inside : forall cs d os d',
  dec_wf d -> druns cs d = Some (os, d') ->
  dbuf d' = dbuf d /\ (doff d <= doff d' <= length (dbuf d))%nat /\
  exists read, dec_rest d = read ++ dec_rest d'.
Proof. exact druns_safe. Qed.
Print Assumptions decoder_stays_inside.

(** Of the reads only [skip n] can panic, and only when fewer than [n] bytes remain. *)
Theorem decoder_panics_only_on_long_skip : forall c d, dec_wf d ->
  (dstep c d = None <-> exists n, c = DSkip n /\ (dec_remaining d < n)%nat).
Proof. exact dstep_panic. Qed.
Print Assumptions decoder_panics_only_on_long_skip.

(** Byte runs and integers: what is yielded is what is in the buffer, failure exactly when
    too little is left, and then nothing is consumed. *)
Theorem decode_bytes_exact : forall n d, dec_wf d ->
  (forall s d', dec_bytes n d = (Some s, d') -> dec_rest d = s ++ dec_rest d' /\ length s = n) /\
  (fst (dec_bytes n d) = None <-> (dec_remaining d < n)%nat) /\
  (fst (dec_bytes n d) = None -> snd (dec_bytes n d) = d).
Proof. exact dec_bytes_exact_lemma. Qed.
Print Assumptions decode_bytes_exact.

Theorem decode_uint_exact : forall n d, dec_wf d ->
  (forall v d', dec_uint n d = (Some v, d') ->
     exists s, dec_rest d = s ++ dec_rest d' /\ length s = n /\ v = be_val s) /\
  (fst (dec_uint n d) = None <-> (dec_remaining d < n)%nat) /\
  (fst (dec_uint n d) = None -> snd (dec_uint n d) = d).
Proof. exact dec_uint_exact_lemma. Qed.
Print Assumptions decode_uint_exact.

Theorem decode_varint_fails_iff_short : forall d, dec_wf d -> bytes_ok (dbuf d) ->
  (fst (dec_varint d) = None <-> (dec_remaining d < varint_need (dec_rest d))%nat).
Proof. exact dec_varint_fail_iff. Qed.
Print Assumptions decode_varint_fails_iff_short.

(** Length-prefixed runs: the result is the run in the buffer after a prefix that says how
    long it is ... *)
Theorem decode_vec_exact : forall n d s d', dec_wf d -> dec_vec n d = (Some s, d') ->
  exists hdr, dec_rest d = hdr ++ s ++ dec_rest d' /\ length hdr = n /\ be_val hdr = lenN s.
Proof. exact dec_vec_some. Qed.
Print Assumptions decode_vec_exact.

(** ... and failure means the prefix is missing or promises more than is there. *)
Theorem decode_vec_fails_iff_short : forall n d, dec_wf d ->
  (fst (dec_vec n d) = None <->
   (dec_remaining d < n)%nat \/
   (n <= dec_remaining d)%nat /\ N.of_nat (dec_remaining d - n) < be_val (firstn n (dec_rest d))).
Proof. exact dec_vec_fail. Qed.
Print Assumptions decode_vec_fails_iff_short.

Theorem decode_vvec_exact : forall d s d', dec_wf d -> bytes_ok (dbuf d) -> dec_vvec d = (Some s, d') ->
  exists hdr, dec_rest d = hdr ++ s ++ dec_rest d' /\ rd_varint hdr = Some (lenN s, []).
Proof. exact dec_vvec_some. Qed.
Print Assumptions decode_vvec_exact.

Theorem decode_vvec_fails_iff_short : forall d, dec_wf d -> bytes_ok (dbuf d) ->
  (fst (dec_vvec d) = None <->
     rd_varint (dec_rest d) = None \/
     exists v r, rd_varint (dec_rest d) = Some (v, r) /\ lenN r < v).
Proof. exact dec_vvec_fail. Qed.
Print Assumptions decode_vvec_fails_iff_short.

(** Round trips: integers, and runs written by the three kinds of run encoder that are
    right on any encoder. *)
Theorem uint_round_trip : forall n v e, (0 < n <= 8)%nat -> v < 2 ^ (8 * N.of_nat n) ->
  exists l, enc_uint n v e = Some (enc_bytes l e) /\ length l = n /\
    forall before after,
      dec_uint n (mkDec (before ++ l ++ after) (length before))
      = (Some v, mkDec (before ++ l ++ after) (length before + length l)).
Proof. exact uint_round_trip_lemma. Qed.
Print Assumptions uint_round_trip.

Theorem vec_round_trip : forall n s e, (0 < n <= 8)%nat -> lenN s < 2 ^ (8 * N.of_nat n) ->
  exists l, enc_vec n s e = Some (enc_bytes l e) /\ length l = (n + length s)%nat /\
    forall before after,
      dec_vec n (mkDec (before ++ l ++ after) (length before))
      = (Some s, mkDec (before ++ l ++ after) (length before + length l)).
Proof. exact vec_round_trip_lemma. Qed.
Print Assumptions vec_round_trip.

Theorem vvec_round_trip : forall s e, bytes_ok s -> lenN s < 2 ^ 62 ->
  exists l, enc_vvec s e = Some (enc_bytes l e) /\ enc_vvec_with s e = Some (enc_bytes l e) /\
    vvec_len (lenN s) = Some (lenN l) /\
    forall before after, bytes_ok before -> bytes_ok after ->
      dec_vvec (mkDec (before ++ l ++ after) (length before))
      = (Some s, mkDec (before ++ l ++ after) (length before + length l)).
Proof. exact vvec_round_trip_lemma. Qed.
Print Assumptions vvec_round_trip.

(** [encode_vec_with] on an encoder that has nothing in it yet (its only use with other
    content in the code is none; see the refutation below). *)
Theorem vec_with_round_trip_partial : forall n body pre, lenN body < 2 ^ (8 * N.of_nat n) ->
  enc_vec_with n body (enc_new pre) = Some (enc_bytes (be_bytes n (lenN body) ++ body) (enc_new pre)).
Proof. exact enc_vec_with_empty. Qed.
Print Assumptions vec_with_round_trip_partial.

(** On an encoder that already holds bytes it overwrites the wrong place: the closure's
    bytes are corrupted and the length is not written where the run starts. *)
Theorem vec_with_round_trip_refuted : exists e n body,
  (0 < n <= 8)%nat /\ lenN body < 2 ^ (8 * N.of_nat n) /\
  enc_vec_with n body e <> Some (enc_bytes (be_bytes n (lenN body) ++ body) e).
Proof. exact enc_vec_with_wrong. Qed.
Print Assumptions vec_with_round_trip_refuted.

(** [encode_vec] documents a panic for a value too long for its length field; it
    truncates the length instead. *)
Theorem vec_too_long_refused_refuted : exists n s e e',
  2 ^ (8 * N.of_nat n) <= lenN s /\ enc_vec n s e = Some e' /\
  fst (dec_vec n (mkDec (ebuf e') (length (ebuf e)))) = Some [].
Proof. exact enc_vec_truncates. Qed.
Print Assumptions vec_too_long_refused_refuted.

Example decoder_ex :
  druns [DUint 2; DVvec; DVec 1; DPeek; DRemainder] (dec_new [1;2;3;10;11;12;1;9;5;6])
  = Some ([ONum (Some 258); OBytes (Some [10;11;12]); OBytes (Some [9]); ONum (Some 5); OBytes (Some [5;6])],
          mkDec [1;2;3;10;11;12;1;9;5;6] 10) /\
  fst (dec_vvec (dec_new [64; 5; 1; 2; 3; 4])) = None /\
  fst (dec_vec 1 (dec_new [3; 1; 2])) = None /\
  enc_vvec_with (repeat 7 70) (enc_new [1]) = enc_vvec (repeat 7 70) (enc_new [1]) /\
  dec_vvec (dec_new (64 :: 70 :: repeat 7 71)) = (Some (repeat 7 70), mkDec (64 :: 70 :: repeat 7 71) 72).
Proof. repeat split; vm_compute; reflexivity. Qed.

(** ** C03 *)
Theorem incremental_varint_chunk_independent : forall chunks, bytes_ok (concat chunks) ->
  match feed_uint iu_default chunks with
  | Done v lft =>
      exists d', dec_varint (dec_new (concat chunks)) = (Some v, d') /\ dec_rest d' = lft
  | Pending s =>
      fst (dec_varint (dec_new (concat chunks))) = None /\
      (1 <= iu_min_remaining s)%nat /\
      forall ext, bytes_ok ext -> (length ext < iu_min_remaining s)%nat ->
        fst (dec_varint (dec_new (concat chunks ++ ext))) = None
  | Panic => False
  end.
Proof. exact feed_uint_main. Qed.
Print Assumptions incremental_varint_chunk_independent.

Theorem incremental_buffer_chunk_independent : forall n chunks, (0 < n)%nat ->
  match feed_buf (ib_new n) chunks with
  | Done v lft => dec_bytes n (dec_new (concat chunks)) = (Some v, mkDec (concat chunks) n) /\
                  concat chunks = v ++ lft
  | Pending s => fst (dec_bytes n (dec_new (concat chunks))) = None /\
                 (1 <= ib_remaining s)%nat /\ (length (concat chunks) + ib_remaining s = n)%nat
  | Panic => False
  end.
Proof. exact feed_buf_main. Qed.
Print Assumptions incremental_buffer_chunk_independent.

Theorem incremental_ignore_chunk_independent : forall n chunks, (0 < n)%nat ->
  match feed_ignore n chunks with
  | Done _ lft => exists v, length v = n /\ concat chunks = v ++ lft
  | Pending r => (1 <= r)%nat /\ (length (concat chunks) + r = n)%nat
  | Panic => False
  end.
Proof. exact feed_ignore_main. Qed.
Print Assumptions incremental_ignore_chunk_independent.

Example incremental_ex :
  feed_uint iu_default [[157]; [127; 62]; [125; 1; 2]; [3]] = Done 494878333 [1; 2; 3] /\
  feed_uint iu_default [[157]; [127]] = Pending (mkIU 7551 (Some 2%nat)) /\
  feed_buf (ib_new 3) [[1]; [2; 3; 4]] = Done [1; 2; 3] [4].
Proof. repeat split; vm_compute; reflexivity. Qed.
