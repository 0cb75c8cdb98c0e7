(** An encoder and a decoder joined by two streams and the header blocks of requests. *)
From Verif Require Import Base Lib QpTables QiModel QbModel QeModel.
Open Scope N_scope.
Open Scope list_scope.
Import ListNotations.

(** What is in flight: bytes of the encoder stream, of the decoder stream, and header blocks: stream, bytes, and the headers that were encoded.
    [j_dead]: streams the decoder has given up. *)
Record joint := mkJ { j_enc : encoder; j_dec : decoder; j_down : list N; j_up : list N; j_blocks : list (N * list N * list header); j_dead : list N }.
Inductive jop :=
| JSettings                                              (** the decoder's settings reach the encoder (neqo-http3/src/connection.rs:1690-1705) *)
| JOpenEncoder | JOpenDecoder                            (** the two streams are created, once *)
| JEncode (s : N) (l : list header) (sends : list bool)  (** headers for a stream; what the transport says to each write *)
| JUpdates (sends : list bool)
| JDown (n : nat)                                        (** so many bytes of the encoder stream arrive *)
| JBlock (s : N)                                         (** the stream's next header block is there, or is tried again *)
| JCancel (s : N)                                        (** the decoder's side gives a stream up *)
| JSend (n : nat)                                        (** the decoder sends; the transport takes so many bytes *)
| JUp (n : nat).                                         (** so many bytes of the decoder stream arrive *)
(** What can be seen: headers given out, with the ones that were encoded. *)
Inductive jout := JNone | JWait (s : N) | JGot (s : N) (got sent : list header).
Fixpoint first_block (s : N) (l : list (N * list N * list header)) : option (list N * list header) :=
  match l with [] => None | (x, b, h) :: l' => if x =? s then Some (b, h) else first_block s l' end.
Fixpoint drop_block (s : N) (l : list (N * list N * list header)) : list (N * list N * list header) :=
  match l with [] => [] | (x, b, h) :: l' => if x =? s then l' else (x, b, h) :: drop_block s l' end.
Definition jstep (j : joint) (o : jop) : rres (joint * jout) :=
  match o with
  | JSettings =>
      rbind (set_max_capacity (j_enc j) (d_max_table (j_dec j))) (fun e =>
      rbind (set_max_blocked e (d_maxb (j_dec j))) (fun e' => Good (mkJ e' (j_dec j) (j_down j) (j_up j) (j_blocks j) (j_dead j), JNone)))
  | JOpenEncoder =>
      match n_local (j_enc j) with
      | NoStream => rbind (add_send_stream (j_enc j)) (fun e => Good (mkJ e (j_dec j) (j_down j) (j_up j) (j_blocks j) (j_dead j), JNone))
      | _ => Good (j, JNone)
      end
  | JOpenDecoder =>
      if d_local (j_dec j) then Good (j, JNone)
      else rbind (dec_add_stream (j_dec j)) (fun d => Good (mkJ (j_enc j) d (j_down j) (j_up j) (j_blocks j) (j_dead j), JNone))
  | JEncode s l sends =>
      rbind (encode_block (j_enc j) (sends, []) l s) (fun '(e, x, b) =>
      Good (mkJ e (j_dec j) (j_down j ++ snd x) (j_up j) (j_blocks j ++ [(s, b, l)]) (j_dead j), JNone))
  | JUpdates sends =>
      rbind (send_updates (j_enc j) (sends, [])) (fun '(e, x, _) => Good (mkJ e (j_dec j) (j_down j ++ snd x) (j_up j) (j_blocks j) (j_dead j), JNone))
  | JDown n =>
      rbind (dec_receive (j_dec j) (firstn n (j_down j))) (fun '(d, _) => Good (mkJ (j_enc j) d (skipn n (j_down j)) (j_up j) (j_blocks j) (j_dead j), JNone))
  | JBlock s =>
      if memN s (j_dead j) then Good (j, JNone)
      else match first_block s (j_blocks j) with
           | None => Good (j, JNone)
           | Some (b, h) =>
               rbind (dec_block (j_dec j) b s) (fun '(d, r) =>
               match r with
               | None => Good (mkJ (j_enc j) d (j_down j) (j_up j) (j_blocks j) (j_dead j), JWait s)
               | Some g => Good (mkJ (j_enc j) d (j_down j) (j_up j) (drop_block s (j_blocks j)) (j_dead j), JGot s g h)
               end)
           end
  | JCancel s => Good (mkJ (j_enc j) (cancel_stream (j_dec j) s) (j_down j) (j_up j) (j_blocks j) (s :: j_dead j), JNone)
  | JSend n => rbind (dec_send (j_dec j) n) (fun '(d, b) => Good (mkJ (j_enc j) d (j_down j) (j_up j ++ b) (j_blocks j) (j_dead j), JNone))
  | JUp n => rbind (enc_receive (j_enc j) (firstn n (j_up j))) (fun e => Good (mkJ e (j_dec j) (j_down j) (skipn n (j_up j)) (j_blocks j) (j_dead j), JNone))
  end.
Fixpoint jrun (j : joint) (l : list jop) : rres (joint * list jout) :=
  match l with
  | [] => Good (j, [])
  | o :: l' => rbind (jstep j o) (fun '(j1, x) => rbind (jrun j1 l') (fun '(j2, xs) => Good (j2, x :: xs)))
  end.
(** [enc_table], [enc_tracked]: the encoder's own settings; [dec_table], [dec_blocked]: the decoder's, sent to the encoder. *)
Definition jinit (enc_table enc_tracked dec_table dec_blocked : N) (huff : bool) : joint :=
  mkJ (enc_new enc_table enc_tracked huff) (dec_new dec_table dec_blocked) [] [] [] [].
