(** Property C75: several batches open at once, and direct writes beside them. *)

From Coq Require Import List NArith ZArith Bool Arith.
From Verif.Model Require Import Bytes Go Keys Pebble Index Table Scan Query ReIndex.
From Verif.Spec Require Import KeySpec StoreSpec TableSpec HistSpec ScanSpec QuerySpec SystemSpec BatchesSpec.
From Verif.Proofs Require Import PebbleFacts Witness ScanBugs QueryBugs ReIndexBugs SystemWitness BatchesFacts BatchesWitness.
Import ListNotations.

(** C75. For all tables with different ids, and all sequences of writes, reads, scans, queries, AddIndex, and reads and writes (also DeleteRange)
    of keys that belong to no table, made directly or in any of any number of open batches, which are begun, committed (or fail to be committed),
    applied to each other or closed in any order: every answer is the one the abstract database gives, where a batch is a set of changes by row,
    seen over whatever is committed at the moment of the call and made by the commit. Missing from the full statement: no row is written by one
    party while another open batch holds a change to it, and no index is added while a batch is open. *)
Theorem C75_batches_partial : forall (I : Type) (eq_dec : forall i j : I, {i = j} + {i <> j}) (Ty Fl : I -> Type) fuel (tb : forall i, table (Ty i) (Fl i)) db fl c l,
  (forall i, good_table (tb i)) -> (forall i j, t_id (tb i) = t_id (tb j) -> i = j) ->
  kv_ok db -> (forall i, consistent (tb i) db (fl i) (c_rows Ty c i)) ->
  (forall k, own_key Ty Fl (World Ty Fl tb c (BNone Ty)) k -> kv_get db k = c_raw Ty c k) ->
  all_mright eq_dec Ty Fl fuel (MWorld Ty Fl tb c (fun _ => SNone Ty)) (run_mops eq_dec Ty Fl fuel (MSys Ty Fl db tb fl (fun _ => None)) l).
Proof. exact @batches_ok. Qed.
Print Assumptions C75_batches_partial.

(** Two batches and direct writes on the same table: the first batch sees the direct write, the second does not see the first until it is committed;
    the second is then applied to a third. *)
Example C75_case : map snd (run_mops bool_dec row2 flt2 9 (mstart []) week) = week_answers /\
  all_mproper bool_dec row2 flt2 9 mworld2 (combine week week_answers).
Proof. split; [exact week_run|exact week_proper]. Qed.

(** C75 is false for batches that share a row. Two batches update one row; both commits succeed, and the index then finds the row under the value of
    the first batch too, which it no longer has. *)
Theorem C75_two_batches_refuted : map snd (run_mops bool_dec row2 flt2 9 (mstart (stored accts tt [a1]))
  [ MBegin row2 0; MBegin row2 1; MWrite row2 (Some 0) true env1 (CUpdate [a1_in 11]); MWrite row2 (Some 1) true env1 (CUpdate [a1_in 12]);
    MCommit row2 0 true; MCommit row2 1 true;
    accounts_of None acct_by_kind (kind 11); accounts_of None acct_by_kind (kind 12) ])
  = [wok; wok; wok; wok; wok; wok; found [a1_in 12]; found [a1_in 12]].
Proof. exact two_batches. Qed.
Print Assumptions C75_two_batches_refuted.

(** C75, a direct Update beside a batch that updated the row: the same. *)
Theorem C75_beside_batch_refuted : map snd (run_mops bool_dec row2 flt2 9 (mstart (stored accts tt [a1]))
  [ MBegin row2 0; MWrite row2 (Some 0) true env1 (CUpdate [a1_in 11]); MWrite row2 None true env1 (CUpdate [a1_in 12]); MCommit row2 0 true;
    MRead row2 None (RGet row2 true a1); accounts_of None acct_by_kind (kind 12) ])
  = [wok; wok; wok; wok; ARow row2 true (Ok (a1_in 11)); found [a1_in 11]].
Proof. exact beside_batch. Qed.
Print Assumptions C75_beside_batch_refuted.

(** C75, two batches insert the same new row: both Inserts and both commits succeed. *)
Theorem C75_twice_inserted_refuted : map snd (run_mops bool_dec row2 flt2 9 (mstart [])
  [ MBegin row2 0; MBegin row2 1; MWrite row2 (Some 0) true env1 (CInsert [a1_in 11]); MWrite row2 (Some 1) true env1 (CInsert [a1_in 12]);
    MCommit row2 0 true; MCommit row2 1 true; MRead row2 None (RGet row2 true a1); accounts_of None acct_by_kind (kind 11) ])
  = [wok; wok; wok; wok; wok; wok; ARow row2 true (Ok (a1_in 12)); found [a1_in 12]].
Proof. exact twice_inserted. Qed.
Print Assumptions C75_twice_inserted_refuted.

(** C75, an index added with reindexing while a batch is open never gets the rows of the batch. *)
Theorem C75_index_beside_batch_refuted : map snd (run_mops bool_dec row2 flt2 9 (mstart [])
  [ MBegin row2 0; MWrite row2 (Some 0) true env1 (CInsert [a1]); MAddIndex row2 true re_quiet [acct_by_flag x03]; MCommit row2 0 true;
    MRead row2 None (RGet row2 true a1); by_flag None ])
  = [wok; wok; wok; wok; ARow row2 true (Ok a1); found []].
Proof. exact index_beside_batch. Qed.
Print Assumptions C75_index_beside_batch_refuted.
