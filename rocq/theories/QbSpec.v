(** Reference notions for QPACK tables. *)
From Verif Require Import Base Lib QpTables QiModel QbModel.
Open Scope N_scope.
Open Scope list_scope.
Import ListNotations.

(** The size of a header in a table or a list (RFC 9204, section 3.2.1). *)
Definition header_size (h : header) : N := lenN (fst h) + lenN (snd h) + 32.
Definition total_size (l : list header) : N := fold_right (fun h s => header_size h + s) 0 l.
(** What a table with the history [H] of all insertions may hold: the last [k] of the first [n]; its total size. *)
Definition holds (H : list header) (t : table) : Prop :=
  exists old, firstn (N.to_nat (t_base t)) H = old ++ rev (map (fun e => (x_name e, x_value e)) (t_dyn t)) /\
  t_used t = total_size (map (fun e => (x_name e, x_value e)) (t_dyn t)) /\ t_used t <= t_cap t.
