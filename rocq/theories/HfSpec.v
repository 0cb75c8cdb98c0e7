(** What a stream of frames says, without the reader: by type, length and payload of the whole byte string. *)
From Verif Require Import Base Lib Reader HfModel.
Open Scope N_scope.
Open Scope list_scope.
Import ListNotations.

(** What a frame type means: refused; the frame is its header and the payload follows in the stream; read whole up to a
    limit; or skipped. *)
Inductive kind (F : Type) := Refused | AtOnce (f : N -> F) | Whole (limit : N) (parse : list N -> F + herr) | Ignored.
Arguments Refused {F}. Arguments AtOnce {F}. Arguments Whole {F}. Arguments Ignored {F}.
(** The next thing in a byte string: nothing at all, the beginning of a frame, a frame and what follows it, or an error. *)
Inductive found (F : Type) := Nothing | Partial | Frame (f : F) (rest : list N) | Fail (e : herr).
Arguments Nothing {F}. Arguments Partial {F}. Arguments Frame {F}. Arguments Fail {F}.
Section Next.
  Context {F : Type} (g : N -> kind F).
  Inductive next : list N -> found F -> Prop :=
  | n_nothing : next [] Nothing
  | n_type bs : bs <> [] -> rd_varint bs = None -> next bs Partial
  | n_refused bs t r : rd_varint bs = Some (t, r) -> g t = Refused -> next bs (Fail HttpFrameUnexpected)
  | n_length bs t r : rd_varint bs = Some (t, r) -> g t <> Refused -> rd_varint r = None -> next bs Partial
  | n_once bs t r f len r' : rd_varint bs = Some (t, r) -> g t = AtOnce f -> rd_varint r = Some (len, r') -> next bs (Frame (f len) r')
  | n_long bs t r lim parse len r' : rd_varint bs = Some (t, r) -> g t = Whole lim parse -> rd_varint r = Some (len, r') ->
      lim < len -> next bs (Fail HttpExcessiveLoad)
  | n_part bs t r lim parse len r' : rd_varint bs = Some (t, r) -> g t = Whole lim parse -> rd_varint r = Some (len, r') ->
      len <= lim -> lenN r' < len -> next bs Partial
  | n_whole bs t r lim parse len data rest f : rd_varint bs = Some (t, r) -> g t = Whole lim parse -> rd_varint r = Some (len, data ++ rest) ->
      len <= lim -> lenN data = len -> parse data = inl f -> next bs (Frame f rest)
  | n_bad bs t r lim parse len data rest e : rd_varint bs = Some (t, r) -> g t = Whole lim parse -> rd_varint r = Some (len, data ++ rest) ->
      len <= lim -> lenN data = len -> parse data = inr e -> next bs (Fail e)
  | n_skipping bs t r len r' : rd_varint bs = Some (t, r) -> g t = Ignored -> rd_varint r = Some (len, r') -> lenN r' < len -> next bs Partial
  | n_skip bs t r len data rest s : rd_varint bs = Some (t, r) -> g t = Ignored -> rd_varint r = Some (len, data ++ rest) -> lenN data = len ->
      next rest s -> next bs s.
  (** All of them, and how it ends. *)
  Inductive frames : list N -> list F -> found F -> Prop :=
  | f_end bs s : next bs s -> (forall f rest, s <> Frame f rest) -> frames bs [] s
  | f_more bs f rest fs s : next bs (Frame f rest) -> frames rest fs s -> frames bs (f :: fs) s.
End Next.

(** *** HTTP/3 (RFC 9114 sections 7.2 and 11.2.1, RFC 9218 section 7) *)
Definition one_varint {F} (f : N -> F) (p : list N) : F + herr := match rd_varint p with Some (v, []) => inl (f v) | _ => inr HttpFrame end.
(** SETTINGS: identifiers and values to the end (section 7.2.4). *)
Inductive pairs : list N -> list (N * N) -> list N -> Prop :=
  | p_end l : (rd_varint l = None \/ exists t r, rd_varint l = Some (t, r) /\ rd_varint r = None) -> pairs l [] l
  | p_pair l t v r r' ps tl : rd_varint l = Some (t, r) -> rd_varint r = Some (v, r') -> pairs r' ps tl -> pairs l ((t, v) :: ps) tl.
Definition reserved_setting (t : N) : Prop := 2 <= t <= 5.
Definition ids_of (t : stype) : list N :=
  match t with
  | MaxHeaderListSize => [6] | MaxTableCapacity => [1] | BlockedStreams => [7] | EnableWebTransport => [0x2b603742]
  | EnableH3Datagram => [0xffd277; 0x33] | EnableConnect => [8]
  end.
(** Only zero and one are values of a switch. *)
Definition switch (t : N) : Prop := In t [0x2b603742; 0xffd277; 0x33; 8].
Definition bad_pair (p : N * N) : Prop := reserved_setting (fst p) \/ (switch (fst p) /\ 1 < snd p).
(** The value of a setting: the first one listed. *)
Definition value_of (ps : list (N * N)) (t : stype) : N :=
  match find (fun p => existsb (N.eqb (fst p)) (ids_of t)) ps with Some p => snd p | None => s_default t end.

(** The payloads, with any parser of priorities and any parser of settings. *)
Definition h3 (prio : list N -> option priority) (sett : list N -> settings + herr) (t : N) : kind hframe :=
  if (t =? 2) || (t =? 6) || (t =? 8) || (t =? 9) then Refused
  else if t =? 0 then AtOnce FData
  else if t =? 1 then Whole 393216 (fun p => inl (FHeaders p))
  else if t =? 3 then Whole 8 (one_varint FCancelPush)
  else if t =? 4 then Whole 4096 (fun p => match sett p with inl s => inl (FSettings s) | inr e => inr e end)
  else if t =? 5 then Whole 393216 (fun p => match rd_varint p with Some (v, b) => inl (FPushPromise v b) | None => inr HttpFrame end)
  else if t =? 7 then Whole 8 (one_varint FGoaway)
  else if t =? 13 then Whole 8 (one_varint FMaxPushId)
  else if t =? 0xf0700 then Whole 4096 (fun p => match rd_varint p with Some (v, b) => match prio b with Some q => inl (FPriorityRequest v q) | None => inr HttpFrame end | None => inr HttpFrame end)
  else if t =? 0xf0701 then Whole 4096 (fun p => match rd_varint p with Some (v, b) => match prio b with Some q => inl (FPriorityPush v q) | None => inr HttpFrame end | None => inr HttpFrame end)
  else Ignored.
(** RFC 9297 section 3.5: capsules; WebTransport: CLOSE_SESSION is an error of 32 bits and a text of up to 1024 bytes. *)
Definition capsules (t : N) : kind (list N) := if t =? 0 then Whole 65535 (fun p => inl p) else Ignored.
Definition wt (utf8 : list N -> bool) (t : N) : kind (N * list N) :=
  if t =? 0x2843 then
    Whole 1028 (fun p => if (lenN p <? 4) || negb (utf8 (skipn 4 p)) then inr HttpMessage else inl (be_val (firstn 4 p), skipn 4 p))
  else Ignored.

(** *** A life of a stream: bytes arrive in runs, it is finished, the reader is asked. *)
Inductive ev := Arrive (b : list N) | Finish | Receive.
Inductive status := Reading | Failed (e : herr) | Ended.
Record life (F : Type) := mkL { l_reader : reader; l_source : source; l_out : list F; l_all : list N; l_idle : bool; l_status : status }.
Arguments mkL {F}. Arguments l_reader {F}. Arguments l_source {F}. Arguments l_out {F}. Arguments l_all {F}. Arguments l_idle {F}. Arguments l_status {F}.
Definition l_init {F} : life F := mkL r_new (mkSrc [] false false) [] [] false Reading.
(** [None]: a panic. *)
Definition l_step {F} (C : fdec F) (l : life F) (e : ev) : option (life F) :=
  match l_status l with
  | Reading =>
      match e with
      | Arrive b =>
          if is_nil b || s_fin (l_source l) then Some l
          else Some (mkL (l_reader l) (mkSrc (s_chunks (l_source l) ++ [b]) false (s_over (l_source l))) (l_out l) (l_all l ++ b) false Reading)
      | Finish => Some (mkL (l_reader l) (mkSrc (s_chunks (l_source l)) true (s_over (l_source l))) (l_out l) (l_all l) false Reading)
      | Receive =>
          match r_receive C (l_reader l) (l_source l) with
          | HPanic => None
          | HErr e => Some (mkL (l_reader l) (l_source l) (l_out l) (l_all l) false (Failed e))
          | HOk (o, fin, r, s) => Some (mkL r s (l_out l ++ match o with Some f => [f] | None => [] end) (l_all l) (match o with None => true | _ => false end) (if fin then Ended else Reading))
          end
      end
  | _ => Some l
  end.
Fixpoint l_run {F} (C : fdec F) (l : life F) (es : list ev) : option (life F) :=
  match es with [] => Some l | e :: es' => match l_step C l e with Some l' => l_run C l' es' | None => None end end.
