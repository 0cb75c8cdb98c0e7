(** Sending an HTTP message: neqo-http3/src/send_message.rs, neqo-http3/src/buffered_send_stream.rs. *)
From Verif Require Import Base Lib CodecModel HfModel HhModel.
Open Scope N_scope.
Open Scope list_scope.
Import ListNotations.

(** send_message.rs 53-58 [MessageState]. *)
Inductive sstate := WHeaders | WData | WTrailers | WDone.
(** send_message.rs 108-116 [SendMessage] with buffered_send_stream.rs 14-22 [BufferedStream] (initialized) and, of the transport's
    stream, the bytes it has taken, the space it offers (neqo-transport/src/send_stream.rs 1405-1414 [avail]) and whether its sending
    side was closed. *)
Record sender := mkS { n_st : sstate; n_buf : list N; n_sent : list N; n_avail : N; n_closed : bool }.
Inductive res (A : Type) := ROk (a : A) | RErr | RPanic.
Arguments ROk {A}. Arguments RErr {A}. Arguments RPanic {A}.
Definition n_with (s : sender) (st : sstate) (buf : list N) : sender := mkS st buf (n_sent s) (n_avail s) (n_closed s).
(** neqo-transport/src/send_stream.rs 1466-1530 [send_internal]: how many bytes are taken; empty writes and writes after the close are
    errors. *)
Definition t_send (s : sender) (b : list N) (atomic : bool) : res (sender * N) :=
  if is_nil b || n_closed s then RErr
  else
    let n := if n_avail s <? lenN b then if atomic then 0 else n_avail s else lenN b in
    ROk (mkS (n_st s) (n_buf s) (n_sent s ++ firstn (N.to_nat n) b) (n_avail s - n) (n_closed s), n).
(** buffered_send_stream.rs 66-87 [send_buffer]. *)
Definition send_buffer (s : sender) : res sender :=
  if is_nil (n_buf s) then ROk s
  else match t_send s (n_buf s) false with
       | ROk (s1, n) => ROk (n_with s1 (n_st s1) (skipn (N.to_nat n) (n_buf s)))
       | RErr => RErr | RPanic => RPanic
       end.
(** 108-124 [send_atomic] and 134-153 [send_atomic_with]: the bytes are written behind an empty buffer, or not at all. *)
Definition send_atomic (s : sender) (b : list N) : res (sender * bool) :=
  match send_buffer s with
  | ROk s1 =>
      if negb (is_nil (n_buf s1)) then ROk (s1, false)
      else match t_send s1 b true with ROk (s2, n) => ROk (s2, n =? lenN b) | RErr => RErr | RPanic => RPanic end
  | RErr => RErr | RPanic => RPanic
  end.
(** send_message.rs 61-84 [new_headers]; the debug assertion is the panic. *)
Definition new_headers (mt : mtype) (st : sstate) (hs : list header) : res sstate :=
  match st with
  | WHeaders =>
      if headers_valid hs mt then
        match mt with
        | Request => ROk WData
        | Response => match is_interim hs with Some true => ROk WHeaders | Some false => ROk WData | None => RErr end
        end
      else RPanic
  | WData => if trailers_valid hs then ROk WTrailers else RErr
  | WTrailers | WDone => RErr
  end.
(** 308-315 [send_headers]; [block] is what the QPACK encoder made of the headers. *)
Definition send_headers (mt : mtype) (s : sender) (hs : list header) (block : list N) : res sender :=
  match new_headers mt (n_st s) hs with
  | ROk st => match h_encode 0 [] (FHeaders block) with Some w => ROk (n_with s st (n_buf s ++ w)) | None => RPanic end
  | RErr => RErr | RPanic => RPanic
  end.
(** 26-32, 187-199: how much of the data goes into one DATA frame. *)
Definition MIN_DATA_FRAME_SIZE := 3.
Definition MAX_2 := 2 ^ 6 - 1. Definition MAX_2_LIMIT := MAX_2 + 3.
Definition MAX_3 := 2 ^ 14 - 1. Definition MAX_3_LIMIT := MAX_3 + 5.
Definition MAX_5 := 2 ^ 30 - 1. Definition MAX_5_LIMIT := MAX_5 + 9.
Definition to_send (len avail : N) : N :=
  if avail <=? MAX_2_LIMIT then N.min (N.min len (avail - 2)) MAX_2
  else if avail <=? MAX_3_LIMIT then N.min (N.min len (avail - 3)) MAX_3
  else if avail <=? MAX_5 then N.min (N.min len (avail - 5)) MAX_5_LIMIT
  else N.min len (avail - 9).
(** 166-220 [send_data]: the number of bytes taken. The writes' errors leave the state as it is then; the debug assertions are panics.
    The watermark for the next event is left out. *)
Definition send_data (s : sender) (b : list N) : sender * res N :=
  match n_st s with
  | WData =>
      match send_buffer s with
      | ROk s1 =>
          if negb (is_nil (n_buf s1)) then (s1, ROk 0)
          else if n_avail s1 <? MIN_DATA_FRAME_SIZE then (s1, ROk 0)
          else
            let n := to_send (lenN b) (n_avail s1) in
            match h_encode 0 [] (FData n) with
            | None => (s1, RPanic)
            | Some w =>
                match send_atomic s1 w with
                | ROk (s2, true) =>
                    match send_atomic s2 (firstn (N.to_nat n) b) with
                    | ROk (s3, true) => (s3, ROk n)
                    | ROk (s3, false) => (s3, RPanic)
                    | RErr => (s2, RErr) | RPanic => (s2, RPanic)
                    end
                | ROk (s2, false) => (s2, RPanic)
                | RErr => (s1, RErr) | RPanic => (s1, RPanic)
                end
            end
      | RErr => (s, RErr) | RPanic => (s, RPanic)
      end
  | _ => (s, RErr)
  end.
(** 295-304 [send_data_atomic]: frame and data are put into the buffer. *)
Definition send_data_atomic (s : sender) (b : list N) : sender * res unit :=
  match h_encode 0 [] (FData (lenN b)) with
  | None => (s, RPanic)
  | Some w => let s1 := n_with s (n_st s) (n_buf s ++ w ++ b) in match send_buffer s1 with ROk s2 => (s2, ROk tt) | RErr => (s1, RErr) | RPanic => (s1, RPanic) end
  end.
Definition t_close (s : sender) : sender := mkS (n_st s) (n_buf s) (n_sent s) (n_avail s) true.
(** 241-261 [send], called when the connection is processed. *)
Definition n_send (s : sender) : res sender :=
  match send_buffer s with
  | ROk s1 => ROk (if is_nil (n_buf s1) then match n_st s1 with WDone => t_close s1 | _ => s1 end else s1)
  | RErr => RErr | RPanic => RPanic
  end.
(** 280-289 [close], 93-101 [fin]. *)
Definition n_close (s : sender) : res sender :=
  match n_st s with
  | WHeaders | WDone => RErr
  | WData | WTrailers => let s1 := n_with s WDone (n_buf s) in ROk (if is_nil (n_buf s1) then t_close s1 else s1)
  end.
