(** Shared vocabulary for every model file: bytes, big-endian integers and a few
    list functions.  Nothing here models project code; it stands for the parts of
    the Rust core library the code uses (integer to_be_bytes/from_be_bytes, slices). *)
From Coq Require Export NArith ZArith List Bool.
Export ListNotations.
Open Scope N_scope.

Arguments N.add : simpl never.
Arguments N.sub : simpl never.
Arguments N.mul : simpl never.
Arguments N.div : simpl never.
Arguments N.modulo : simpl never.
Arguments N.pow : simpl never.
Arguments N.ltb : simpl never.
Arguments N.leb : simpl never.
Arguments N.eqb : simpl never.
Arguments N.min : simpl never.
Arguments N.max : simpl never.
Arguments N.shiftr : simpl never.
Arguments N.shiftl : simpl never.
Arguments N.land : simpl never.
Arguments N.lor : simpl never.

(** A byte is an [N] below 256 (Rust u8). *)
Definition byte_ok (b : N) : Prop := b < 256.
Definition bytes_ok (l : list N) : Prop := Forall byte_ok l.

(** Length of a list as [N] (Rust usize / u64 lengths). *)
Definition lenN {A} (l : list A) : N := N.of_nat (length l).

(** The low [n] bytes of [v], most significant first: Rust
    [v.to_be_bytes()[8 - n ..]]. *)
Fixpoint be_bytes (n : nat) (v : N) : list N :=
  match n with
  | O => []
  | S k => (v / 256 ^ N.of_nat k) mod 256 :: be_bytes k v
  end.

(** Rust [u64::from_be_bytes] on a right-aligned buffer. *)
Definition be_val (l : list N) : N := fold_left (fun acc b => acc * 256 + b) l 0.

Definition firstnN {A} (n : N) (l : list A) : list A := firstn (N.to_nat n) l.
Definition skipnN {A} (n : N) (l : list A) : list A := skipn (N.to_nat n) l.
