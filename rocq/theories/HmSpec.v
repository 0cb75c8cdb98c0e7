(** An HTTP message as the bytes of a stream spell it (RFC 9114 section 4.1): interim responses, headers, DATA frames, trailers. *)
From Verif Require Import Base Lib CodecModel Reader HfModel HfSpec HhModel HmModel.
Open Scope N_scope.
Open Scope list_scope.
Import ListNotations.

(** Where one is in a message: before the headers, at a field section, in the body, inside a DATA frame, after trailers. *)
Inductive place := InHead | InSection (block : list N) | InBody | InData (n : N) | InTrail.
Inductive fate :=
  | Between (may_end : bool)  (* between frames *)
  | Inside                    (* inside a frame *)
  | Wrong (e : merr)
  | Session.                  (* an extended CONNECT: the rest is not a message *)
Section Message.
  Context (g : N -> kind hframe) (D : nat -> list N -> section) (mt : mtype) (push : bool).
  Definition may_end (p : place) : bool := match p with InHead => false | _ => true end.
  Definition framed (p : place) : Prop := match p with InHead | InBody | InTrail => True | _ => False end.
  (** Headers with whether they are interim, and the body. *)
  Inductive message : place -> nat -> list N -> list (list header * bool) -> list N -> fate -> Prop :=
  | g_nothing p k bs : framed p -> next g bs Nothing -> message p k bs [] [] (Between (may_end p))
  | g_partial p k bs : framed p -> next g bs Partial -> message p k bs [] [] Inside
  | g_fail p k bs e : framed p -> next g bs (Fail e) -> message p k bs [] [] (Wrong (EFrame e))
  (* HEADERS *)
  | g_empty k bs rest : next g bs (Frame (FHeaders []) rest) -> message InHead k bs [] [] (Wrong EGeneral)
  | g_head k bs b rest hs body f : next g bs (Frame (FHeaders b) rest) -> b <> [] -> message (InSection b) k rest hs body f -> message InHead k bs hs body f
  | g_qpack k b bs : (D k b = SBad \/ exists dyn, D k b = SGood dyn None) -> message (InSection b) k bs [] [] (Wrong EQpack)
  | g_malformed k b bs dyn hs : D k b = SGood dyn (Some hs) -> accept mt hs = None -> message (InSection b) k bs [] [] (Wrong EHeader)
  | g_session k b bs dyn hs hs' i : D k b = SGood dyn (Some hs) -> accept mt hs = Some (hs', i, true) -> message (InSection b) k bs [(hs', i)] [] Session
  | g_interim k b bs dyn hs hs' l body f : D k b = SGood dyn (Some hs) -> accept mt hs = Some (hs', true, false) ->
      message InHead (S k) bs l body f -> message (InSection b) k bs ((hs', true) :: l) body f
  | g_final k b bs dyn hs hs' l body f : D k b = SGood dyn (Some hs) -> accept mt hs = Some (hs', false, false) ->
      message InBody (S k) bs l body f -> message (InSection b) k bs ((hs', false) :: l) body f
  | g_trailers k bs b rest l body f : next g bs (Frame (FHeaders b) rest) -> message InTrail k rest l body f -> message InBody k bs l body f
  | g_more k bs b rest : next g bs (Frame (FHeaders b) rest) -> message InTrail k bs [] [] (Wrong (EFrame HttpFrameUnexpected))
  (* DATA *)
  | g_early p k bs n rest : p = InHead \/ p = InTrail -> next g bs (Frame (FData n) rest) -> message p k bs [] [] (Wrong (EFrame HttpFrameUnexpected))
  | g_data k bs n rest l body f : next g bs (Frame (FData n) rest) -> message (InData n) k rest l body f -> message InBody k bs l body f
  | g_payload k n d rest l body f : lenN d = n -> message InBody k rest l body f -> message (InData n) k (d ++ rest) l (d ++ body) f
  | g_short k n d : lenN d < n -> message (InData n) k d [] d Inside
  (* PUSH_PROMISE and others *)
  | g_promise p k bs id b rest l body f : framed p -> push = true -> next g bs (Frame (FPushPromise id b) rest) -> message p k rest l body f -> message p k bs l body f
  | g_no_push p k bs id b rest : framed p -> push = false -> next g bs (Frame (FPushPromise id b) rest) -> message p k bs [] [] (Wrong (EFrame HttpFrameUnexpected))
  | g_other p k bs fr rest : framed p -> next g bs (Frame fr rest) -> match fr with FHeaders _ | FData _ | FPushPromise _ _ => False | _ => True end ->
      message p k bs [] [] (Wrong (EFrame HttpFrameUnexpected)).
End Message.

(** A life: bytes arrive, the stream is finished, the transport tells that it is readable, QPACK tells that it is no longer
    blocked, the application reads. *)
Inductive act := Arrives (b : list N) | Finishes | Readable (a : answers) | Unblocked (a : answers) | Reads (a : answers) (room : nat).
Inductive mstatus := Running | Ending | Broken (e : merr).
Record world := mkW { w_msg : msg; w_all : list N; w_heads : list (list header * bool); w_body : list N; w_ends : nat; w_status : mstatus }.
Definition heads_of (ev : list mevent) : list (list header * bool) :=
  concat (map (fun e => match e with VHeaders hs i _ => [(hs, i)] | VSession hs => [(hs, false)] | _ => [] end) ev).
(** The end of the message, told with the headers. *)
Definition ends_of (ev : list mevent) : nat := length (filter (fun e => match e with VHeaders _ _ true => true | _ => false end) ev).
(** A client begins before the first frame; at a server the type of the first frame has been read with the type of the stream. *)
Definition w_init (first : option (list N * N)) : world :=
  match first with
  | None => mkW (mkMsg (MHead r_new) (mkSrc [] false false) [] 0) [] [] [] 0 Running
  | Some (bytes, t) => mkW (mkMsg (MHead (mkR (GetLength iu_default) t 0)) (mkSrc [] false false) [] 0) bytes [] [] 0 Running
  end.
Section Life.
  Context (prio : list N -> option priority) (D : nat -> list N -> section) (mt : mtype) (push : bool).
  Definition w_put (w : world) (o : out msg) (ev : list mevent) (body : list N) (fin : bool) : option world :=
    let w' m st := mkW m (w_all w) (w_heads w ++ heads_of ev) (w_body w ++ body) (w_ends w + ends_of ev + if fin then 1 else 0) st in
    match o with
    | Panicked => None
    | Error e => Some (w' (w_msg w) (Broken e))
    | Done m => Some (w' m (match m_state m with MClosed => Ending | _ => Running end))
    end.
  (** [None]: a panic. A stream that is closed or in error is gone. The transport reports a stream only until its end has been taken. *)
  Definition w_step (w : world) (x : act) : option world :=
    match w_status w with
    | Running =>
        let m := w_msg w in let s := m_src m in
        let put b fin := mkW (mkMsg (m_state m) (mkSrc (s_chunks s ++ if is_nil b then [] else [b]) fin (s_over s)) (m_blocked m) (m_k m)) (w_all w ++ b) (w_heads w) (w_body w) (w_ends w) Running in
        match x with
        | Arrives b => if s_fin s then Some w else Some (put b false)
        | Finishes => if s_fin s then Some w else Some (put [] true)
        | Readable a => if s_over s then Some w else let '(o, ev) := m_receive prio D mt push a m in w_put w o ev [] false
        | Unblocked a =>
            match m_blocked m, m_state m with
            | [], MDecoding _ _ | _ :: _, _ => let '(o, ev) := m_unblocked prio D mt push a m in w_put w o ev [] false
            | _, _ => Some w
            end
        | Reads a room =>
            match m_read_data prio D mt push a m room with
            | (Done (m', b, fin), ev) => w_put w (Done m') ev b fin
            | (Error e, ev) => w_put w (Error e) ev [] false
            | (Panicked, _) => None
            end
        end
    | _ => Some w
    end.
  Fixpoint w_run (w : world) (xs : list act) : option world :=
    match xs with [] => Some w | x :: xs' => match w_step w x with Some w' => w_run w' xs' | None => None end end.
End Life.
