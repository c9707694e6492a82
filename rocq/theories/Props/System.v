(** Property C72: a database with several tables. *)

From Coq Require Import List NArith Bool Arith.
From Verif.Model Require Import Bytes Go Keys Pebble Index Table Scan Query ReIndex.
From Verif.Spec Require Import KeySpec StoreSpec TableSpec HistSpec ScanSpec QuerySpec SystemSpec.
From Verif.Proofs Require Import SystemFacts SystemWitness.
Import ListNotations.

(** C72. For all tables with different ids, and all sequences of Insert, Update, Upsert, Delete, Get, Exist, scans, queries, AddIndex with reindexing,
    and reads and writes of keys that belong to no table, directly or in a batch that is opened, committed (or fails to be committed) or closed:
    every answer is the one the abstract database gives. Its tables are maps from primary keys to rows that do not affect each other; a call
    that fails changes nothing; a batch shows its own writes over what was committed before, nobody else sees them until the commit, and
    then all of them are there. *)
Theorem C72_new_database : forall (I : Type) (eq_dec : forall i j : I, {i = j} + {i <> j}) (Ty Fl : I -> Type) fuel (tb : forall i, table (Ty i) (Fl i)) fl l,
  (forall i, good_table (tb i)) -> (forall i j, t_id (tb i) = t_id (tb j) -> i = j) ->
  all_right eq_dec Ty Fl fuel (World Ty Fl tb (empty Ty) (BNone Ty)) (run_ops eq_dec Ty Fl fuel (Sys Ty Fl [] tb fl None) l).
Proof. exact @system_ok. Qed.
Print Assumptions C72_new_database.

(** C72, from any database whose tables are consistent. *)
Theorem C72_any_database : forall (I : Type) (eq_dec : forall i j : I, {i = j} + {i <> j}) (Ty Fl : I -> Type) fuel (tb : forall i, table (Ty i) (Fl i)) db fl c l,
  (forall i, good_table (tb i)) -> (forall i j, t_id (tb i) = t_id (tb j) -> i = j) ->
  kv_ok db -> (forall i, consistent (tb i) db (fl i) (c_rows Ty c i)) ->
  (forall k, own_key Ty Fl (World Ty Fl tb c (BNone Ty)) k -> kv_get db k = c_raw Ty c k) ->
  all_right eq_dec Ty Fl fuel (World Ty Fl tb c (BNone Ty)) (run_ops eq_dec Ty Fl fuel (Sys Ty Fl db tb fl None) l).
Proof. exact @system_from. Qed.
Print Assumptions C72_any_database.

(** Two tables with rows of different types, a key of the user's, a batch over all three, a failing insert, a new index and a spoiled batch. *)
Example C72_case : map snd (run_ops bool_dec row2 flt2 9 start2 day) = answers /\ all_proper bool_dec row2 flt2 9 world2 (combine day answers).
Proof. split; [exact day_answers|exact day_proper]. Qed.
