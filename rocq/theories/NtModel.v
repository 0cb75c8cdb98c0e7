(** Sending NEW_TOKEN frames: neqo-transport/src/addr_valid.rs 394-460. *)
From Coq Require Import NArith List Bool.
From Verif Require Import Base CodecModel.
Import ListNotations.
Open Scope N_scope.

(** 394-398 [NewTokenFrameStatus], 406-412 [NewTokenSender]. *)
Record status := mkNT { nt_seqno : N; nt_token : list N; nt_needs : bool }.
Record sender := mkNS { ns_tokens : list status; ns_next : N }.
Definition ns_init := mkNS [] 0.
(** 400-404 [len]: frame type, length and token; a token is far below 2^62 bytes. *)
Definition nt_len (tok : list N) : N := 1 + match varint_len (lenN tok) with Some k => k | None => 0 end + lenN tok.
(** 416-423 [send_new_token]. *)
Definition nt_send (tok : list N) (s : sender) : sender := mkNS (ns_tokens s ++ [mkNT (ns_next s) tok true]) (ns_next s + 1).
(** 425-443 [write_frames]: the frames written, with the number each carries in its recovery token; [room]: [builder.remaining()]. *)
Fixpoint nt_write (room : N) (l : list status) : list status * list (N * list N) :=
  match l with
  | [] => ([], [])
  | t :: r =>
      if nt_needs t && (nt_len (nt_token t) <=? room) then
        let (r', fs) := nt_write (room - nt_len (nt_token t)) r in
        (mkNT (nt_seqno t) (nt_token t) false :: r', (nt_seqno t, nt_token t) :: fs)
      else let (r', fs) := nt_write room r in (t :: r', fs)
  end.
(** 445-452 [lost]: the first match. *)
Fixpoint nt_lost (n : N) (l : list status) : list status :=
  match l with
  | [] => []
  | t :: r => if nt_seqno t =? n then mkNT (nt_seqno t) (nt_token t) true :: r else t :: nt_lost n r
  end.
(** 454-456 [acked]. *)
Definition nt_acked (n : N) (l : list status) : list status := filter (fun t => negb (nt_seqno t =? n)) l.

Inductive nop := NGive (tok : list N) | NWrite (room : N) | NLost (n : N) | NAcked (n : N).
Definition n_step (s : sender) (o : nop) : list (N * list N) * sender :=
  match o with
  | NGive tok => ([], nt_send tok s)
  | NWrite room => let (l, fs) := nt_write room (ns_tokens s) in (fs, mkNS l (ns_next s))
  | NLost n => ([], mkNS (nt_lost n (ns_tokens s)) (ns_next s))
  | NAcked n => ([], mkNS (nt_acked n (ns_tokens s)) (ns_next s))
  end.
Fixpoint n_run (s : sender) (ops : list nop) : list (nop * list (N * list N)) * sender :=
  match ops with
  | [] => ([], s)
  | o :: r => let (fs, s1) := n_step s o in let (t, s2) := n_run s1 r in ((o, fs) :: t, s2)
  end.
