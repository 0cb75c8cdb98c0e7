(** CRYPTO streams: neqo-transport/src/crypto.rs 1486-1782.  The transmit buffer, the
    reassembly and one turn of the write loop are in SsModel, RxModel and SniModel. *)
From Verif Require Import Base CodecModel FcModel RtModel RxModel SsModel LrModel SniModel.

(** crypto.rs:1486-1490 [CryptoStream]. *)
Record cstream := mkCs { cs_tx : txb; cs_rx : rx }.
Definition cs_new : cstream := mkCs tb_new rx_new.
(** crypto.rs:1492-1506 [CryptoStreams]. *)
Inductive cstreams :=
| CInitial (i h a : cstream)
| CHandshake (h a : cstream)
| CApp (a : cstream).
(** crypto.rs:1763-1771 [default]. *)
Definition cstreams_new : cstreams := CInitial cs_new cs_new cs_new.
(** crypto.rs:1510. *)
Definition BUFFER_LIMIT : N := 65536.
Inductive cerr := EInternal | EViolation | EBufferExceeded.

(** crypto.rs:1617-1655 [get], [get_mut]. *)
Definition c_get (sp : space) (c : cstreams) : option cstream :=
  match c, sp with
  | CInitial i _ _, SpInitial => Some i
  | CInitial _ h _, SpHandshake | CHandshake h _, SpHandshake => Some h
  | CInitial _ _ a, SpApp | CHandshake _ a, SpApp | CApp a, SpApp => Some a
  | _, _ => None
  end.
(** An update through the reference [get_mut] gives. *)
Definition c_put (sp : space) (x : cstream) (c : cstreams) : cstreams :=
  match c, sp with
  | CInitial i h a, SpInitial => CInitial x h a
  | CInitial i h a, SpHandshake => CInitial i x a
  | CInitial i h a, SpApp => CInitial i h x
  | CHandshake h a, SpHandshake => CHandshake x a
  | CHandshake h a, SpApp => CHandshake h x
  | CApp a, SpApp => CApp x
  | _, _ => c
  end.

(** crypto.rs:1512-1540 [discard].  [None] is a panic. *)
Definition c_discard (sp : space) (c : cstreams) : option cstreams :=
  match sp, c with
  | SpInitial, CInitial _ h a => Some (CHandshake h a)
  | SpInitial, _ => Some c
  | SpHandshake, CHandshake _ a => Some (CApp a)
  | SpHandshake, CInitial _ _ _ => None
  | SpHandshake, CApp _ => Some c
  | SpApp, _ => None
  end.

(** crypto.rs:1552-1567 [inbound_frame].  [None] is a panic; the error comes with the state
    the call leaves. *)
Definition rx_crypto (offset : N) (data : list N) (r : rx) : option (rx * option cerr) :=
  match chk (rx_retired r + BUFFER_LIMIT) with
  | None => None
  | Some lim =>
      if (match data with [] => false | _ => true end) && (lim <? offset) then Some (r, Some EBufferExceeded)
      else
        match rx_inbound offset data r with
        | None => None
        | Some (r', false) => Some (r', Some EBufferExceeded)
        | Some (r', true) =>
            match csub (rx_received r') (rx_retired r') with
            | None => None
            | Some n => Some (r', if n <=? BUFFER_LIMIT then None else Some EBufferExceeded)
            end
        end
  end.

(** crypto.rs:1657-1759 [write_frame]: the loop.  [limit] is the packet's limit and [room] what
    is left of it; a written frame takes its size from the room.  [sp] is where the buffer's
    VecDeque is split into two slices.  The fuel is enough: CryProofs.loop_spec. *)
Fixpoint write_loop (fuel : nat) (slicing : bool) (limit sp room : N) (b : txb) : option (txb * list (N * list N * N)) :=
  match fuel with
  | O => None
  | S fuel' =>
      match tb_next sp b with
      | None => None
      | Some (b', None) => Some (b', [])
      | Some (b', Some (offset, data)) =>
          match crypto_turn slicing limit room offset data with
          | None => None
          | Some [] => Some (b', [])
          | Some [(o, d, n)] =>
              match tb_sent o (lenN d) b' with
              | None => None
              | Some b2 =>
                  match write_loop fuel' slicing limit sp (room - n) b2 with
                  | None => None
                  | Some (b3, fs) => Some (b3, (o, d, n) :: fs)
                  end
              end
          | Some ((o1, d1, n1) :: (o2, d2, n2) :: _) =>
              match tb_sent o1 (lenN d1) b' with
              | None => None
              | Some b2 =>
                  match tb_sent o2 (lenN d2) b2 with
                  | None => None
                  | Some b3 => Some (b3, [(o1, d1, n1); (o2, d2, n2)])
                  end
              end
          end
      end
  end.

(** The calls the connection makes, with arbitrary arguments.  crypto.rs:1542-1548 [send],
    1569-1571 [data_ready], 1573-1580 [read_to_end], 1582-1593 [acked], [lost], 1597-1603
    [resend_unacked], 1605-1607 [is_empty]. *)
Inductive kop :=
| KSend (sp : space) (d : list N)
| KFrame (sp : space) (offset : N) (d : list N)
| KReady (sp : space)
| KRead (sp : space)
| KAcked (sp : space) (off len : N)
| KLost (sp : space) (off len : N)
| KResend (sp : space)
| KEmpty (sp : space)
| KWrite (sp : space) (slicing : bool) (limit room split : N)
| KDiscard (sp : space).
Inductive kout := OOk | OErr (e : cerr) | OBytes (l : list N) | OBool (b : bool) | OFrames (fs : list (N * list N * N)).

Definition with_tx (b : txb) (x : cstream) : cstream := mkCs b (cs_rx x).
Definition with_rx (r : rx) (x : cstream) : cstream := mkCs (cs_tx x) r.
(** Spaces whose keys are gone: an error, or nothing happens. *)
Definition k_gone (o : kop) : kout :=
  match o with
  | KSend _ _ | KRead _ => OErr EViolation
  | KFrame _ _ _ => OErr EInternal
  | KReady _ => OBool false
  | KEmpty _ => OBool true
  | KWrite _ _ _ _ _ => OFrames []
  | _ => OOk
  end.
Definition k_space (o : kop) : space :=
  match o with KSend s _ | KFrame s _ _ | KReady s | KRead s | KAcked s _ _ | KLost s _ _ | KResend s | KEmpty s | KWrite s _ _ _ _ | KDiscard s => s end.
(** What a call does to the stream of its space. *)
Definition k_local (o : kop) (x : cstream) : option (cstream * kout) :=
  match o with
  | KSend _ d => Some (with_tx (fst (tb_send d (cs_tx x))) x, OOk)
  | KFrame _ off d =>
      match rx_crypto off d (cs_rx x) with
      | None => None
      | Some (r, e) => Some (with_rx r x, match e with None => OOk | Some e => OErr e end)
      end
  | KReady _ => Some (x, OBool (rx_ready (cs_rx x)))
  | KRead _ => match rx_read_to_end (cs_rx x) with None => None | Some (r, l) => Some (with_rx r x, OBytes l) end
  | KAcked _ off len => match tb_acked off len (cs_tx x) with None => None | Some b => Some (with_tx b x, OOk) end
  | KLost _ off len => match tb_lost off len (cs_tx x) with None => None | Some b => Some (with_tx b x, OOk) end
  | KResend sp =>
      match sp with
      | SpApp => Some (x, OOk)
      | _ => match rt_unmark_sent (tb_rt (cs_tx x)) with None => None | Some r => Some (with_tx (mkTb (tb_buf (cs_tx x)) r) x, OOk) end
      end
  | KEmpty _ => let '(b, has) := tb_has (cs_tx x) in Some (with_tx b x, OBool (negb has))
  | KWrite _ slicing limit room split =>
      match write_loop (S (N.to_nat room)) slicing limit split room (cs_tx x) with
      | None => None
      | Some (b, fs) => Some (with_tx b x, OFrames fs)
      end
  | KDiscard _ => Some (x, OOk)
  end.
Definition k_step (c : cstreams) (o : kop) : option (cstreams * kout) :=
  match o with
  | KDiscard sp => match c_discard sp c with None => None | Some c' => Some (c', OOk) end
  | _ =>
      match c_get (k_space o) c with
      | None => Some (c, k_gone o)
      | Some x => match k_local o x with None => None | Some (x', out) => Some (c_put (k_space o) x' c, out) end
      end
  end.
Fixpoint k_run (c : cstreams) (ops : list kop) : option (cstreams * list (kop * kout)) :=
  match ops with
  | [] => Some (c, [])
  | o :: ops' =>
      match k_step c o with
      | None => None
      | Some (c1, out) => match k_run c1 ops' with None => None | Some (c2, h) => Some (c2, (o, out) :: h) end
      end
  end.
