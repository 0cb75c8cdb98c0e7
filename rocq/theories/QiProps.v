(** C83-C85: QPACK integers, Huffman strings and instructions. *)
From Verif Require Import Base Lib QpTables QiModel QiSpec QiProofs QiProofs2.
From Coq Require Import Lia.
Open Scope N_scope.
Open Scope list_scope.
Import ListNotations.

(** *** C83: integers *)
(** Every 64-bit number is read back, whatever follows. *)
Theorem int_round_trip : forall p v rest, wf_prefix p -> v < 2 ^ 64 -> buf_int (p_len p) (encode_int p v ++ rest) = Good (v, rest).
Proof. exact int_trip. Qed.
Print Assumptions int_round_trip.
Example prefixes_wf : wf_prefix ENCODER_CAPACITY /\ wf_prefix DECODER_HEADER_ACK /\ wf_prefix HEADER_FIELD_LITERAL_NAME_REF_STATIC /\ wf_prefix HEADER_FIELD_LITERAL_NAME_REF_DYNAMIC_POST.
Proof. repeat split; try (cbn; lia); [exists 1 | exists 1 | exists 5 | exists 0]; split; reflexivity. Qed.
Example int_round_trip_ex : encode_int ENCODER_CAPACITY 1337 = [63; 154; 10] /\ buf_int 3 (encode_int ENCODER_CAPACITY (2 ^ 64 - 1)) = Good (2 ^ 64 - 1, []).
Proof. split; vm_compute; reflexivity. Qed.
(** A number is read from bytes exactly if they are that number, it has 64 bits, and it takes at most ten more bytes; otherwise there is an error, and never a panic. *)
Theorem int_exact : forall len b bs v rest, 1 <= len <= 7 -> bytes_ok (b :: bs) ->
  (buf_int len (b :: bs) = Good (v, rest) <-> is_int (8 - len) b bs v rest /\ v < 2 ^ 64).
Proof.
  intros len b bs v rest Hl B. inversion B as [|? ? Bb Bs]; subst. cbn [buf_int]. unfold is_int, int_new. rewrite first_max_eq by lia.
  assert (N.land b (2 ^ (8 - len) - 1) = b mod 2 ^ (8 - len)) as -> by (rewrite <- N.pred_sub, <- N.ones_equiv; apply N.land_ones).
  assert (2 ^ (8 - len) <> 0) as Hn by (apply N.pow_nonzero; lia). assert (b mod 2 ^ (8 - len) < 2 ^ (8 - len)) as Hm by (apply N.mod_lt; auto).
  assert (2 ^ (8 - len) <= 2 ^ 7) as H7 by (apply N.pow_le_mono_r; lia). change (2 ^ 7) with 128 in H7.
  destruct (N.ltb_spec (b mod 2 ^ (8 - len)) (2 ^ (8 - len) - 1)) as [L|L].
  - assert (int_read (mkI (b mod 2 ^ (8 - len)) 0 true) bs = IOk (b mod 2 ^ (8 - len)) bs) as -> by (destruct bs; reflexivity). split.
    + intros H. injection H as <- <-. split; [left; auto|]. change (2 ^ 64) with 18446744073709551616. lia.
    + intros ([(_ & -> & ->)|(E & _)] & _); [auto | lia].
  - assert (b mod 2 ^ (8 - len) = 2 ^ (8 - len) - 1) as Eb by lia. assert (i_ok (mkI (b mod 2 ^ (8 - len)) 0 false)) as O by (intros _; exists 0; cbn; splits; lia).
    split.
    + intros H. destruct (int_read (mkI (b mod 2 ^ (8 - len)) 0 false) bs) as [v' rest'| | |] eqn:E; try discriminate H. injection H as <- <-.
      apply int_sound in E; auto; [|cbn [i_val]; change (2 ^ 64) with 18446744073709551616; lia]. destruct E as (tl & -> & T & Lt & -> & V). cbn [i_val i_cnt] in *. split; auto. right. split; auto. exists tl. splits; auto; [unfold lenN in Lt; lia | rewrite Eb; lia].
    + intros ([(X & _)|(_ & tl & -> & T & Lt & ->)] & V); [lia|]. apply bytes_ok_app in Bs. rewrite int_complete; auto; cbn [i_val i_cnt]; [|tauto | unfold lenN; lia | rewrite Eb; lia]. do 2 f_equal. rewrite Eb. lia.
Qed.
Print Assumptions int_exact.
Example int_exact_ex : is_int 5 31 [154; 10; 7] 1337 [7] /\ buf_int 3 [31; 255; 255; 255; 255; 255; 255; 255; 255; 255; 1] = Bad.
Proof. split; [right; split; [reflexivity|]; exists [154; 10]; cbn; repeat split; lia | vm_compute; reflexivity]. Qed.
(** Reading goes on where it stopped, and gives what reading all at once gives. *)
Theorem int_in_pieces : forall r a b, int_read r (a ++ b) = match int_read r a with IMore r' => int_read r' b | IOk v rest => IOk v (rest ++ b) | e => e end.
Proof. intros. apply int_pieces_l. Qed.
Print Assumptions int_in_pieces.
(** No bytes, in however many pieces, make a sum overflow. *)
Fixpoint int_feeds (r : ireader) (ps : list (list N)) : ires := match ps with [] => IMore r | a :: ps' => match int_read r a with IMore r' => int_feeds r' ps' | e => e end end.
Theorem int_no_panic : forall b len ps, Forall bytes_ok ps -> int_feeds (int_new b len) ps <> IPanic.
Proof.
  intros b len ps F. assert (i_ok (int_new b len)) as O by apply int_new_ok. revert O. generalize (int_new b len). induction F as [|a ps B F IH]; intros r O; cbn [int_feeds]; [discriminate|].
  pose proof (int_read_ok a r O B) as Q. destruct (int_read r a); try discriminate; [|destruct Q]. apply IH. tauto.
Qed.
Print Assumptions int_no_panic.
Example int_pieces_ex : int_feeds (int_new 31 3) [[154]; []; [10; 9]] = IOk 1337 [9]. Proof. vm_compute. reflexivity. Qed.

(** *** C84: Huffman codes *)
(** Every string is encoded, as the codes of its bytes, with ones at the end of the last byte. *)
Theorem huffman_encodes : forall s, bytes_ok s -> exists e, huffman_encode s = Some e /\ bytes_ok e /\ is_code s e.
Proof. exact encode_spec. Qed.
Print Assumptions huffman_encodes.
Theorem huffman_round_trip : forall s, bytes_ok s -> exists e, huffman_encode s = Some e /\ huffman_decode e = Good s.
Proof. intros s B. destruct (enc_decode s B) as (e & E & _ & D). eauto. Qed.
Print Assumptions huffman_round_trip.
(** What is decoded is the encoding of the string it gives, and of no other; anything else is refused: a cut-off code, eight or more bits of padding, padding with a zero, the code of the end of string. *)
Theorem huffman_exact : forall e s, bytes_ok e -> (huffman_decode e = Good s <-> bytes_ok s /\ huffman_encode s = Some e).
Proof.
  intros e s B. split.
  - intros H. destruct (decode_sound e s H) as (Bs & C). split; auto. destruct (encode_spec s Bs) as (e' & E & B' & C'). rewrite (code_unique s e e'); auto.
  - intros (Bs & E). destruct (enc_decode s Bs) as (e' & E' & _ & D). congruence.
Qed.
Print Assumptions huffman_exact.
Theorem huffman_no_panic : forall e, huffman_decode e <> Panic. Proof. exact decode_nopanic. Qed.
Print Assumptions huffman_no_panic.
(** Decoding lengthens a string by at most eight fifths. *)
Theorem huffman_expansion : forall e s, huffman_decode e = Good s -> 5 * lenN s <= 8 * lenN e. Proof. exact decode_len. Qed.
Print Assumptions huffman_expansion.
(** "no-cache" (RFC 7541, C.4.2); padding with zeroes, a byte of ones. *)
Example huffman_ex : huffman_encode [110; 111; 45; 99; 97; 99; 104; 101] = Some [168; 235; 16; 100; 156; 191] /\
  huffman_decode [168; 235; 16; 100; 156; 191] = Good [110; 111; 45; 99; 97; 99; 104; 101] /\ huffman_decode [168; 235; 16; 100; 156; 190] = Bad /\ huffman_decode [168; 235; 16; 100; 156; 191; 255] = Bad.
Proof. repeat split; vm_compute; reflexivity. Qed.

(** *** C85: instructions *)
(** What is put on the encoder stream is what comes out, in order, whatever pieces it arrives in. *)
Theorem encoder_stream : forall h l, Forall (i_fits h) l -> exists w, e_marshals h l = Some w /\ forall ps, concat ps = w -> e_feeds SInstr ps = (l, SInstr, FOk).
Proof.
  intros h l F. destruct (e_stream h l F) as (w & E & R). exists w. split; auto. intros ps <-. rewrite e_feeds_concat. destruct ps; [|exact R]. exact R.
Qed.
Print Assumptions encoder_stream.
Theorem decoder_stream : forall l, Forall d_fits l -> forall ps, concat ps = flat_map d_marshal l -> d_feeds DInstr ps = (l, DInstr, FOk).
Proof.
  intros l F ps E. pose proof (d_stream l F) as R. rewrite <- E in R. rewrite d_feeds_concat. destruct ps; [|exact R]. exact R.
Qed.
Print Assumptions decoder_stream.
Example encoder_stream_ex : Forall (i_fits true) [ECapacity 220; EInsertStatic 0 [97; 98; 99]; EInsertDynamic 700 []; EInsertLiteral [120; 121] [122]; EDuplicate 1].
Proof. repeat constructor; cbn; try (vm_compute; congruence). Qed.
(** On any bytes, in any pieces, the result does not depend on the pieces, there is no panic, no string is longer than eight fifths of 384 KiB, and no more than 384 KiB are kept between pieces. *)
Definition held (s : estate) : N := match s with SLit1 _ _ l | SLit2 _ l => match l_state l with LLit _ got => lenN got | _ => 0 end | _ => 0 end.
Definition strings (i : einstr) : list (list N) := match i with ECapacity _ | EDuplicate _ => [] | EInsertStatic _ v | EInsertDynamic _ v => [v] | EInsertLiteral n v => [n; v] end.
Theorem encoder_stream_any : forall ps, Forall bytes_ok ps ->
  e_feeds SInstr ps = e_feeds SInstr [concat ps] /\
  match e_feeds SInstr ps with (l, s, e) => e <> FPanic /\ held s <= 393216 /\ forall i v, In i l -> In v (strings i) -> 5 * lenN v <= 8 * 393216 end.
Proof.
  intros ps F. split.
  - rewrite !e_feeds_concat. destruct ps; auto. rewrite <- (app_nil_r (concat (l :: ps))) at 1. auto.
  - pose proof (e_feeds_ok ps SInstr Logic.I F) as Q. destruct (e_feeds SInstr ps) as ((l, s), e). destruct Q as (Q1 & Q2 & Q3). split; auto. split.
    + destruct s as [|k r|k i r|n r]; cbn [held]; try lia; destruct r as [[|r|m got] h]; cbn in Q2 |- *; unfold MAX_LEN in *; lia.
    + intros i v Hi Hv. rewrite Forall_forall in Q1. apply Q1 in Hi. destruct i; cbn in Hi, Hv; try (destruct Hv; fail); unfold v_ok, MAX_LEN in Hi; intuition (subst; auto).
Qed.
Print Assumptions encoder_stream_any.
Theorem decoder_stream_any : forall ps, Forall bytes_ok ps -> d_feeds DInstr ps = d_feeds DInstr [concat ps] /\ match d_feeds DInstr ps with (_, _, e) => e <> FPanic end.
Proof.
  intros ps F. split.
  - rewrite !d_feeds_concat. destruct ps; auto. rewrite <- (app_nil_r (concat (l :: ps))) at 1. auto.
  - pose proof (d_feeds_ok ps DInstr Logic.I F) as Q. destruct (d_feeds DInstr ps) as ((l, s), e). tauto.
Qed.
Print Assumptions decoder_stream_any.
(** A literal of more than 384 KiB as encoded is refused, even if the string is shorter: bytes that take thirty bits each. *)
Theorem literal_limit : forall h p v w, wf_lit p -> bytes_ok v -> encode_literal h p v = Some w -> MAX_LEN < lenN (enc h v) -> lenN (enc h v) < 2 ^ 64 -> buf_literal (p_len p) w = Bad.
Proof.
  intros h p v w W B E L Hv. rewrite literal_eq in E by auto. injection E as <-. pose proof (lp_wf h p W) as Wl.
  destruct (read_int_tail (lp h p) (lenN (enc h v)) (enc h v) Wl Hv) as (b & tl & -> & _ & R). cbn [List.app buf_literal]. change (p_len p + 1) with (p_len (lp h p)). rewrite R.
  destruct (N.ltb_spec MAX_LEN (lenN (enc h v))); [auto | lia].
Qed.
Print Assumptions literal_limit.
