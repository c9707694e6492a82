(** What a well-formed store is. *)

From Coq Require Import List Sorting.Sorted.
From Verif.Model Require Import Bytes Pebble.

(** Entries in strictly increasing key order. *)
Definition elt (a b : entry) : Prop := blt (fst a) (fst b).
Definition kv_ok (s : kv) : Prop := StronglySorted elt s.
