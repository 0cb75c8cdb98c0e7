(** Header checks: neqo-http3/src/headers_checks.rs and neqo-common/src/header.rs. *)
From Coq Require Import String Ascii.
From Verif Require Import Base Lib.
Open Scope N_scope.
Open Scope list_scope.
Import ListNotations.

(** Names and values are bytes. *)
Definition str (s : string) : list N := map N_of_ascii (list_ascii_of_string s).
Fixpoint beq (a b : list N) : bool :=
  match a, b with [], [] => true | x :: a', y :: b' => (x =? y) && beq a' b' | _, _ => false end.
Definition is (a : list N) (s : string) : bool := beq a (str s).
(** neqo-common/src/header.rs 15-27 [Header]. *)
Definition header := (list N * list N)%type.
Inductive mtype := Request | Response.
(** headers_checks.rs 12-21 [PseudoHeaderState]. *)
Inductive pseudo := PStatus | PMethod | PScheme | PAuthority | PPath | PProtocol | PRegular.
Definition pseudo_eqb (a b : pseudo) : bool :=
  match a, b with
  | PStatus, PStatus | PMethod, PMethod | PScheme, PScheme | PAuthority, PAuthority | PPath, PPath | PProtocol, PProtocol | PRegular, PRegular => true
  | _, _ => false
  end.
(** The [EnumSet], as a list. *)
Definition pset := list pseudo.
Definition p_has (s : pset) (p : pseudo) : bool := existsb (pseudo_eqb p) s.
(** 29-43 [try_from]. *)
Definition pseudo_of (mt : mtype) (name : list N) : option pseudo :=
  match mt with
  | Response => if is name ":status" then Some PStatus else None
  | Request =>
      if is name ":method" then Some PMethod else if is name ":scheme" then Some PScheme
      else if is name ":authority" then Some PAuthority else if is name ":path" then Some PPath
      else if is name ":protocol" then Some PProtocol else None
  end.
(** [str::parse::<u16>]: an optional plus sign, digits, no overflow. (The check that the value is UTF-8 comes before; a value
    that is not UTF-8 has a byte that is no digit.) *)
Fixpoint digits (acc : N) (v : list N) : option N :=
  match v with
  | [] => Some acc
  | c :: v' => if (0x30 <=? c) && (c <=? 0x39) then let a := acc * 10 + (c - 0x30) in if 65535 <? a then None else digits a v' else None
  end.
Definition parse_u16 (v : list N) : option N :=
  match v with [] => None | c :: v' => if c =? 0x2b then match v' with [] => None | _ => digits 0 v' end else digits 0 v end.
(** 46-67 [is_interim]; None is Err(InvalidHeader). *)
Definition is_interim (hs : list header) : option bool :=
  match hs with
  | h :: _ =>
      if is (fst h) ":status" then
        match parse_u16 (snd h) with
        | Some code => if code =? 101 then None else Some ((100 <=? code) && (code <? 200))
        | None => None
        end
      else None
  | [] => None
  end.
(** 69-92 [track_pseudo]; None is Err(InvalidHeader). *)
Definition starts_colon (name : list N) : bool := match name with c :: _ => c =? 0x3a | [] => false end.
Definition track_pseudo (name : list N) (s : pset) (mt : mtype) : option (bool * pset) :=
  match (if starts_colon name then if p_has s PRegular then None else pseudo_of mt name else Some PRegular) with
  | None => None
  | Some p =>
      let ps := negb (pseudo_eqb p PRegular) in
      if negb (p_has s p) || negb ps then Some (ps, p :: s) else None
  end.
(** 118-127: the bytes refused in names and values. *)
Definition bad_name_byte (b : N) : bool := (b =? 0) || (b =? 0x0a) || (b =? 0x0d) || (b =? 0x3a) || ((0x41 <=? b) && (b <=? 0x5a)).
Definition bad_value_byte (b : N) : bool := (b =? 0) || (b =? 0x0a) || (b =? 0x0d).
(** 100-171 [headers_valid], the loop: the three values and the set. *)
Record seen := mkSeen { v_method : option (list N); v_protocol : option (list N); v_scheme : option (list N); v_set : pset }.
Definition check_one (mt : mtype) (s : seen) (h : header) : option seen :=
  let '(name, value) := h in
  match track_pseudo name (v_set s) mt with
  | None => None
  | Some (ps, set) =>
      let s1 :=
        if ps then
          if is name ":method" then mkSeen (Some value) (v_protocol s) (v_scheme s) set
          else if is name ":protocol" then mkSeen (v_method s) (Some value) (v_scheme s) set
          else if is name ":scheme" then mkSeen (v_method s) (v_protocol s) (Some value) set
          else mkSeen (v_method s) (v_protocol s) (v_scheme s) set
        else mkSeen (v_method s) (v_protocol s) (v_scheme s) set in
      if existsb bad_name_byte (if ps then tl name else name) then None
      else if existsb bad_value_byte value then None
      else if is name "connection" || is name "keep-alive" || is name "proxy-connection" || is name "transfer-encoding" || is name "upgrade" then None
      else if is name "te" && negb (is value "trailers") then None
      else Some s1
  end.
Fixpoint check_all (mt : mtype) (s : seen) (hs : list header) : option seen :=
  match hs with [] => Some s | h :: hs' => match check_one mt s h with Some s' => check_all mt s' hs' | None => None end end.
Definition opt_is (o : option (list N)) (s : string) : bool := match o with Some v => is v s | None => false end.
(** 143-171: what must be there. *)
Definition mask (mt : mtype) (s : seen) : option pset :=
  match mt with
  | Response => Some [PStatus]
  | Request =>
      if opt_is (v_method s) "CONNECT" then
        match v_protocol s with
        | Some p => if is p "webtransport" && negb (opt_is (v_scheme s) "https") then None else Some [PMethod; PAuthority; PScheme; PPath]
        | None => Some [PMethod; PAuthority]
        end
      else Some [PMethod; PScheme; PPath]
  end.
Definition headers_valid (hs : list header) (mt : mtype) : bool :=
  match check_all mt (mkSeen None None None []) hs with
  | None => false
  | Some s =>
      match mask mt s with
      | None => false
      | Some m =>
          if match mt with Request => p_has (v_set s) PProtocol && negb (opt_is (v_method s) "CONNECT") | Response => false end then false
          else forallb (p_has (v_set s)) m
      end
  end.
(** 173-185 [trailers_valid]. *)
Definition trailers_valid (hs : list header) : bool := forallb (fun h => negb (starts_colon (fst h))) hs.
(** neqo-common/src/header.rs 42-53 [is_allowed_for_response]. *)
Definition allowed_for_response (h : header) : bool :=
  let n := fst h in
  negb (is n "connection" || is n "host" || is n "keep-alive" || is n "proxy-connection" || is n "te" || is n "transfer-encoding" || is n "upgrade").
(** header.rs 106-114 [contains_header], [find_header]. *)
Definition contains (hs : list header) (n v : string) : bool := existsb (fun h => is (fst h) n && is (snd h) v) hs.
Definition finds (hs : list header) (n : string) : bool := existsb (fun h => is (fst h) n) hs.
(** neqo-http3/src/recv_message.rs 161-205 [add_headers]: what is handed on, if it is: the headers, whether they are interim,
    whether they ask for a session (extended CONNECT). *)
Definition accept (mt : mtype) (hs : list header) : option (list header * bool * bool) :=
  match (match mt with Request => Some false | Response => is_interim hs end) with
  | None => None
  | Some interim =>
      if headers_valid hs mt then
        let hs' := match mt with Response => filter allowed_for_response hs | Request => hs end in
        Some (hs', interim, match mt with Request => contains hs' ":method" "CONNECT" && finds hs' ":protocol" | Response => false end)
      else None
  end.
