(** What belongs to an index, and what a duplicate id is. *)

From Coq Require Import List.
From Verif.Model Require Import Bytes Index.
Import ListNotations.

(** [k] is a key of one of the indexes [idxs] of table [tid]. *)
Definition index_area {T} (tid : byte) (idxs : list (index T)) (k : bytes) : Prop :=
  exists ix rest, In ix idxs /\ k = tid :: ix_id ix :: rest.

(** [idxs] is [before ++ ix :: after], where [ix] is the first index whose id is taken by [m] or an earlier one. *)
Definition first_duplicate {T} (m idxs before : list (index T)) (ix : index T) (after : list (index T)) : Prop :=
  idxs = before ++ ix :: after /\ NoDup (map ix_id before) /\
  (forall j, In j before -> ~ In (ix_id j) (map ix_id m)) /\ In (ix_id ix) (map ix_id (m ++ before)).
