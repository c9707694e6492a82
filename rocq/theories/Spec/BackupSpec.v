(** What a dump and a restore mean. *)

From Coq Require Import List NArith Sorting.Sorted.
From Verif.Model Require Import Bytes Pebble.
Import ListNotations.

(** Keys that bond writes: a table id, an index id and a 4-byte length, which is not the largest 32-bit number (no index part of
    4 GiB - 1 bytes). *)
Definition bond_keys (s : kv) : Prop :=
  forall k v, kv_get s k = Some v -> 6 <= length k /\ firstn 4 (skipn 2 k) <> [xff; xff; xff; xff].

(** [l] lists exactly the ids 1..255 under which table [t] has a key, in increasing order. *)
Definition indexes_in_use (s : kv) (t : byte) (l : list byte) : Prop :=
  StronglySorted (fun i j => (b2n i < b2n j)%N) l /\
  forall i, In i l <-> i <> x00 /\ exists rest v, kv_get s (t :: i :: rest) = Some v.

(** [k] is a row of one of the tables, or, if indexes are asked for, an index entry of one. *)
Definition wanted (tables : list byte) (with_index : bool) (k : bytes) : Prop :=
  exists t i rest, k = t :: i :: rest /\ In t tables /\ (i = x00 \/ with_index = true).
