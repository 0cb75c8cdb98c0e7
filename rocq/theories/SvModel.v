(** The server: neqo-transport/src/server.rs.  It takes datagrams in batches, gives each to a connection, answers it
    statelessly, accepts a connection for it or drops it, and asks its connections for output. *)
From Coq Require Import NArith List Bool.
From Verif Require Import Base Lib VerModel PktModel AddrModel.
Import ListNotations.
Open Scope N_scope.

(** A datagram: where it came from, where to, its bytes. *)
Record dgram := mkD { d_src : addr; d_dst : addr; d_data : list N }.
(** server.rs 63-81 [InitialDetails]. *)
Record details := mkDet { i_scid : list N; i_dcid : list N; i_token : list N; i_version : version }.
Definition MIN_INITIAL : N := 1200.
(** What a connection answers when asked for output: nothing, datagrams, or a time to call again. *)
Inductive cout := CNone | CSend (ds : list dgram) | CCall (t : N).
(** What became of a datagram (for the statements; the code only logs it). *)
Inductive fate :=
| FBad                    (* not a packet *)
| FRouted (i : nat)       (* given to the i-th connection *)
| FUnknown                (* no connection knows its identifier, and it cannot start one *)
| FTooShort
| FVersions (d : dgram)   (* answered with a Version Negotiation packet *)
| FInvalid                (* its token is not valid *)
| FRetry (d : dgram)
| FNoRetry                (* a Retry was due but could not be made *)
| FRefused                (* no connection could be created *)
| FAccepted (odcid : option (list N))
| FPanic.

Section Server.
(** A connection, as the server sees it: connection/mod.rs [is_valid_local_cid], [process_input], [process] given the first
    datagram, [process_multiple_output], [state] being Closed, and [new_server] with [setup_connection]. *)
Variable C : Type.
Variable c_valid : C -> list N -> bool.
Variable c_input : C -> dgram -> N -> C.
Variable c_output : C -> N -> C * cout.
Variable c_first : C -> dgram -> N -> C * option dgram.
Variable c_closed : C -> bool.
Variable c_new : details -> option (list N) -> N -> option C.
(** The environment: Retry's AEAD, the connection ID decoder and generator, token validation and creation, randomness. *)
Variable rexp : version -> nat.
Variable rseal : list N -> list N.
Variable cid : list N -> option (list N * list N).
Variable versions : list version.
Variable opens : list N -> list N -> option (list N).
Variable pol : policy.
Variable start : N.
Variable mint : list N -> addr -> N -> option (list N).
Variable fresh : dgram -> N -> option (list N).
Variable rnd : dgram -> N -> N.

(** The first connection, with its place, that knows the identifier; 451-455 [find]. *)
Fixpoint find_conn (i : nat) (cs : list C) (id : list N) : option nat :=
  match cs with [] => None | c :: r => if c_valid c id then Some i else find_conn (S i) r id end.
Fixpoint update (i : nat) (f : C -> C) (cs : list C) : list C :=
  match cs, i with [] , _ => [] | c :: r, O => f c :: r | c :: r, S i' => c :: update i' f r end.
(** 351-402 [accept_connection]. *)
Definition accept (cs : list C) (i : details) (d : dgram) (odcid : option (list N)) (now : N) : list C * fate * option dgram :=
  match c_new i odcid now with
  | None => (cs, FRefused, None)
  | Some c => let '(c', o) := c_first c d now in (cs ++ [c'], FAccepted odcid, o)
  end.
(** 229-301 [handle_initial]. *)
Definition handle_initial (cs : list C) (i : details) (d : dgram) (now : N) : list C * fate * option dgram :=
  match validate opens pol start (i_token i) (d_src d) now with
  | VPanic => (cs, FPanic, None)
  | Invalid => (cs, FInvalid, None)
  | Pass => accept cs i d None now
  | ValidRetry odcid => accept cs i d (Some odcid) now
  | Validate =>
      if lenN (i_dcid i) <? 8 then (cs, FNoRetry, None)
      else match mint (i_dcid i) (d_src d) now with
           | None => (cs, FNoRetry, None)
           | Some token =>
               match fresh d now with
               | None => (cs, FNoRetry, None)
               | Some id =>
                   match build_retry rseal (i_version i) (i_scid i) id token (i_dcid i) (rnd d now) with
                   | None => (cs, FPanic, None)
                   | Some p => let o := mkD (d_dst d) (d_src d) p in (cs, FRetry o, Some o)
                   end
               end
           end
  end.
(** 431-541 [process_input], one turn of its loop.  Where the parser would panic ([decode_pkt] None) the fate is FPanic; C26 shows
    it does not. *)
Definition s_one (cs : list C) (d : dgram) (now : N) : list C * fate * option dgram :=
  match decode_pkt rexp cid true (d_data d) with
  | None => (cs, FPanic, None)
  | Some (POk u _) =>
      match find_conn 0 cs (u_dcid u) with
      | Some i => (update i (fun c => c_input c d now) cs, FRouted i, None)
      | None =>
          let ver := match u_ver u with Some w => version_of_wire w | None => None end in
          let vn := match u_type u with POther => true | PInitial => match ver with Some v => negb (memv v versions) | None => true end | _ => false end in
          if vn then
            if lenN (d_data d) <? MIN_INITIAL then (cs, FTooShort, None)
            else
              let g := rnd d now in
              let o := mkD (d_dst d) (d_src d) (build_vn (g mod 256) (g / 256 mod 256) (g / 65536 mod 256) (g / 16777216 mod 256)
                         (match u_scid u with Some s => s | None => [] end) (u_dcid u) (match u_ver u with Some w => w | None => 0 end) versions) in
              (cs, FVersions o, Some o)
          else match u_type u, ver with
               | PInitial, Some v =>
                   if lenN (d_data d) <? MIN_INITIAL then (cs, FTooShort, None)
                   else handle_initial cs (mkDet (match u_scid u with Some s => s | None => [] end) (u_dcid u) (u_token u) v) d now
               | _, _ => (cs, FUnknown, None)
               end
      end
  | Some _ => (cs, FBad, None)
  end.
(** 431-541 [process_input]: the connections, what was done, the answer, and the datagrams left over. *)
Fixpoint s_input (cs : list C) (ds : list dgram) (now : N) : list C * list (dgram * N * fate) * option dgram * list dgram :=
  match ds with
  | [] => (cs, [], None, [])
  | d :: r =>
      match s_one cs d now with
      | (cs1, f, Some o) => (cs1, [(d, now, f)], Some o, r)
      | (cs1, f, None) => let '(cs2, l, o, rest) := s_input cs1 r now in (cs2, (d, now, f) :: l, o, rest)
      end
  end.
(** The state kept between calls; 121-131. *)
Record srv := mkS { s_conns : list C; s_saved : list (dgram * N) }.
(** 404-429 [process_multiple_input]. *)
Fixpoint from_saved (cs : list C) (saved : list (dgram * N)) (ds : list dgram) (now : N) : srv * list (dgram * N * fate) * option dgram :=
  match saved with
  | (d, t) :: rest =>
      let '(cs1, l, o, lft) := s_input cs [d] t in
      match o with
      | Some o => (mkS cs1 (rest ++ map (fun d => (d, t)) lft ++ map (fun d => (d, now)) ds), l, Some o)
      | None => let '(s2, l2, o2) := from_saved cs1 rest ds now in (s2, l ++ l2, o2)
      end
  | [] => let '(cs1, l, o, lft) := s_input cs ds now in (mkS cs1 (map (fun d => (d, now)) lft), l, o)
  end.
(** 543-569 [process_next_output]. *)
Fixpoint outputs (cs : list C) (now : N) (call : option N) : list C * cout :=
  match cs with
  | [] => ([], match call with Some t => CCall t | None => CNone end)
  | c :: r =>
      let '(c', o) := c_output c now in
      match o with
      | CSend ds => (c' :: r, CSend ds)
      | CNone => let '(r', x) := outputs r now call in (c' :: r', x)
      | CCall t => let '(r', x) := outputs r now (Some (match call with Some p => N.min p t | None => t end)) in (c' :: r', x)
      end
  end.
(** 588-610 [process_multiple]; None is the assertion of 547-550. *)
Definition process (s : srv) (ds : list dgram) (now : N) : option (srv * list (dgram * N * fate) * cout) :=
  match from_saved (s_conns s) (s_saved s) ds now with
  | (s1, l, Some o) => Some (s1, l, CSend [o])
  | (s1, l, None) =>
      match s_saved s1 with
      | _ :: _ => None
      | [] =>
          match outputs (s_conns s1) now None with
          | (cs, CSend o) => Some (mkS cs [], l, CSend o)
          | (cs, o) => Some (mkS (filter (fun c => negb (c_closed c)) cs) [], l, o)
          end
      end
  end.
Definition s_new : srv := mkS [] [].
Fixpoint s_run (s : srv) (calls : list (list dgram * N)) : option (srv * list (dgram * N * fate) * list cout) :=
  match calls with
  | [] => Some (s, [], [])
  | (ds, now) :: r =>
      match process s ds now with
      | None => None
      | Some (s1, l, o) => match s_run s1 r with None => None | Some (s2, l2, os) => Some (s2, l ++ l2, o :: os) end
      end
  end.
End Server.
