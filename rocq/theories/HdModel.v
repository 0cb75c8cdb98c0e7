(** A server hands a request's body to its application: /repo/neqo-http3/src/server.rs [prepare_data]. *)
From Verif Require Import Base Lib Reader HfModel HhModel HmModel.
Open Scope N_scope.
Open Scope list_scope.
Import ListNotations.

(** server.rs 37 [MAX_EVENT_DATA_SIZE]. *)
Definition PIECE : nat := 1024.
Section Prepare.
  Context (prio : list N -> option priority) (D : nat -> list N -> section).
  (** server.rs 380-413 [prepare_data]: the pieces told, each with whether it is the last, and how reading left the stream. A stream that is
      gone reads as one that gives nothing. The bound on the rounds: each but the last takes a full piece. *)
  Fixpoint prepare (fuel : nat) (a : answers) (m : msg) : list (list N * bool) * out msg :=
    match fuel with
    | O => ([], Panicked)
    | S fuel' =>
        match m_read_data prio D Request false a m PIECE with
        | (Done (m', b, fin), _) =>
            let told := if (0 <? lenN b) || fin then [(b, fin)] else [] in
            if (Nat.ltb (length b) PIECE) || fin then (told, Done m')
            else let '(t, r) := prepare fuel' a m' in (told ++ t, r)
        | (Error e, _) => ([], Error e)
        | (Panicked, _) => ([], Panicked)
        end
    end.
  Definition prepare_data (a : answers) (m : msg) := prepare (S (length (concat (s_chunks (m_src m))))) a m.
End Prepare.
