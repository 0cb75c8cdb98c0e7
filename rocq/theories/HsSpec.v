(** A sender at work, and what its application has handed over. *)
From Verif Require Import Base Lib CodecModel HfModel HhModel HsModel.
Open Scope N_scope.
Open Scope list_scope.
Import ListNotations.

(** The application gives headers (with the block QPACK makes of them), data, data to be sent as one, and closes; the connection is
    processed; the transport gets more room. *)
Inductive sop := Headers (hs : list header) (block : list N) | Data (b : list N) | DataAtomic (b : list N) | Flush | Close | Room (n : N).
(** What was accepted: the headers with their blocks, and the bytes of the body; all the room there was. *)
Record given := mkG { v_heads : list (list header * list N); v_body : list N; v_closed : bool; v_room : N }.
Definition s_start : sender * given := (mkS WHeaders [] [] 0 false, mkG [] [] false 0).
Definition s_step (mt : mtype) (p : sender * given) (o : sop) : option (sender * given) :=
  let '(s, v) := p in
  match o with
  | Headers hs block =>
      match send_headers mt s hs block with
      | ROk s' => Some (s', mkG (v_heads v ++ [(hs, block)]) (v_body v) (v_closed v) (v_room v))
      | RErr => Some p | RPanic => None
      end
  | Data b =>
      match send_data s b with
      | (s', ROk n) => Some (s', mkG (v_heads v) (v_body v ++ firstn (N.to_nat n) b) (v_closed v) (v_room v))
      | (s', RErr) => Some (s', v)
      | (_, RPanic) => None
      end
  | DataAtomic b =>
      match send_data_atomic s b with
      | (s', ROk _) => Some (s', mkG (v_heads v) (v_body v ++ b) (v_closed v) (v_room v))
      | (s', RErr) => Some (s', v)
      | (_, RPanic) => None
      end
  | Flush => match n_send s with ROk s' => Some (s', v) | RErr => Some p | RPanic => None end
  | Close => match n_close s with ROk s' => Some (s', mkG (v_heads v) (v_body v) true (v_room v)) | RErr => Some p | RPanic => None end
  | Room n => Some (mkS (n_st s) (n_buf s) (n_sent s) (n_avail s + n) (n_closed s), mkG (v_heads v) (v_body v) (v_closed v) (v_room v + n))
  end.
Fixpoint s_run (mt : mtype) (p : sender * given) (os : list sop) : option (sender * given) :=
  match os with [] => Some p | o :: os' => match s_step mt p o with Some p' => s_run mt p' os' | None => None end end.
(** What a receiver is told of a list of headers: those up to the final ones; what follows are trailers. *)
Fixpoint told (mt : mtype) (l : list (list header)) : list (list header * bool) :=
  match l with
  | [] => []
  | hs :: l' => match accept mt hs with Some (hs', i, _) => (hs', i) :: (if i then told mt l' else []) | None => [] end
  end.
(** How many lists of headers came after the final ones; None: they have not been given. *)
Fixpoint after_final (mt : mtype) (l : list (list header)) : option nat :=
  match l with [] => None | hs :: l' => match accept mt hs with Some (_, true, _) => after_final mt l' | _ => Some (length l') end end.
(** The application's part: acceptable headers, no extended CONNECT; sizes that a field section and memory can have; [DataAtomic], which
    sessions use, only between headers and close. *)
Definition sane_headers (mt : mtype) (hs : list header) : Prop := exists hs' i, accept mt hs = Some (hs', i, false).
Definition sane (mt : mtype) (v : given) (o : sop) : Prop :=
  match o with
  | Headers hs block => block <> [] /\ bytes_ok block /\ lenN block <= 384 * 1024 /\ (after_final mt (map fst (v_heads v)) = None -> sane_headers mt hs)
  | Data b => bytes_ok b /\ lenN b < 2 ^ 62
  | DataAtomic b => bytes_ok b /\ lenN b < 2 ^ 62 /\ v_closed v = false /\ after_final mt (map fst (v_heads v)) = Some 0%nat
  | _ => True
  end.
Fixpoint sane_run (mt : mtype) (p : sender * given) (os : list sop) : Prop :=
  match os with [] => True | o :: os' => sane mt (snd p) o /\ match s_step mt p o with Some p' => sane_run mt p' os' | None => True end end.
