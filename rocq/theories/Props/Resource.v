(** C69: what a call opens it closes, once, and leaves alone what it was given. *)

From Coq Require Import List Bool.
From Verif.Model Require Import Resource.
From Verif.Spec Require Import ResourceSpec.
From Verif.Proofs Require Import ResourceFacts ResourceProps ResourceBugs.
Import ListNotations.

(** Insert, Update, Upsert, Delete and UnsafeInsert, however they end, even if the caller's code panics. *)
Theorem C69_writes : forall f ext t o, In f [write_call; delete_call; unsafe_insert_call] -> runs (f ext) t o -> careful t.
Proof. exact writes_careful. Qed.
Print Assumptions C69_writes.

(** two rows, the second fails *)
Example C69_writes_case :
  let cs := [true; false; true; false; false; false; false; false; false; false; false; true; true] in
  runs (write_call false) (trace_of (write_call false) cs) (Returned true)
  /\ trace_of (write_call false) cs =
     [EOpen RTableLock; EClose RTableLock; EOpen RBatch; EOpen RIter; EUse RIter; EUse RBatch; EClose RIter; EClose RBatch].
Proof. cbv zeta. split; [apply (interp_runs (write_call false)); vm_compute; discriminate|vm_compute; reflexivity]. Qed.

(** Exist, reads of several rows, Version, the format migration, the filter and its Save, Intersect, a caller's walk that closes its iterator. *)
Theorem C69_calls : forall f t o,
  In f [exist_call; get_keys; version_call; migrate_call; filter_call; save_call; intersect false; intersect true; walk_call false; walk_call true] ->
  runs f t o -> careful t.
Proof. exact calls_careful. Qed.
Print Assumptions C69_calls.

(** an iterator over two selections *)
Example C69_calls_case :
  let cs := [false; true; false; true; false] in
  runs (walk_call true) (trace_of (walk_call true) cs) (Returned false)
  /\ trace_of (walk_call true) cs = [EOpen RIter; EUse RIter; EClose RIter; EOpen RIter; EUse RIter; EClose RIter].
Proof. cbv zeta. split; [apply (interp_runs (walk_call true)); vm_compute; discriminate|vm_compute; reflexivity]. Qed.

(** Get, the scans and queries, if they return. *)
Theorem C69_scans_partial : forall f multi t err, In f [scan_primary; scan_secondary; get_call; query_call] -> runs (f multi) t (Returned err) -> careful t.
Proof. exact scans_careful. Qed.
Print Assumptions C69_scans_partial.

(** the callback gets a row from the second index entry on, then stops *)
Example C69_scans_case :
  let cs := [false; true; false; true; true; false; false; true; false; false; false; false; false; false; false; true; true] in
  runs (scan_secondary false) (trace_of (scan_secondary false) cs) (Returned true)
  /\ trace_of (scan_secondary false) cs =
     [EOpen RIter; EUse RIter; EUse RIter; EUse RIter; EUse RIter; EOpen RInner; EUse RInner; EClose RInner; EClose RIter].
Proof. cbv zeta. split; [apply (interp_runs (scan_secondary false)); vm_compute; discriminate|vm_compute; reflexivity]. Qed.

(** Not if the callback panics. *)
Theorem C69_panic_refuted :
  (exists t, runs (scan_primary false) t Panicked /\ opens RIter t = 1 /\ closes RIter t = 0)
  /\ (exists t, runs (query_call false) t Panicked /\ opens RIter t = 1 /\ closes RIter t = 0).
Proof. exact (conj scan_panic query_panic). Qed.
Print Assumptions C69_panic_refuted.

(** A dump of the rows that succeeds; the files and the snapshot of any that does. *)
Theorem C69_dump_partial :
  (forall t, runs (dump_call false) t (Returned false) -> careful t)
  /\ (forall x indexes t, x <> RGiven -> x <> RIter -> runs (dump_call indexes) t (Returned false) -> released x t).
Proof. exact (conj dump_careful dump_rest). Qed.
Print Assumptions C69_dump_partial.

(** two tables, the first in two files *)
Example C69_dump_case :
  let cs := [false; false; true; false; false; false; true; false; true; false; false; false; false; true; false; false; false] in
  runs (dump_call false) (trace_of (dump_call false) cs) (Returned false)
  /\ trace_of (dump_call false) cs =
     [EOpen RSnapshot; EUse RSnapshot; EOpen RIter; EOpen RFile; EUse RIter; EUse RFile; EClose RFile; EOpen RFile; EClose RFile; EClose RIter;
      EUse RSnapshot; EOpen RIter; EOpen RFile; EClose RFile; EClose RIter; EClose RSnapshot].
Proof. cbv zeta. split; [apply (interp_runs (dump_call false)); vm_compute; discriminate|vm_compute; reflexivity]. Qed.

(** The list of the indexes that a dump of them reads never closes its iterator. *)
Theorem C69_dump_indexes_refuted :
  (forall t o, runs index_ids_call t o -> opens RIter t = S (closes RIter t))
  /\ (exists t, runs (dump_call true) t (Returned false) /\ opens RIter t = 2 /\ closes RIter t = 1)
  /\ (exists t, runs (dump_call false) t (Returned true) /\ opens RFile t = 1 /\ closes RFile t = 0).
Proof. exact (conj index_ids_left (conj dump_leaks dump_file)). Qed.
Print Assumptions C69_dump_indexes_refuted.

(** Loading a filter: the lock is given back however it ends, the rest if it succeeds, all but one. *)
Theorem C69_load_partial :
  (forall t o, runs load_call t o -> released RFilterLock t) /\ (forall x t, x <> RCount -> runs load_call t (Returned false) -> released x t).
Proof. exact (conj load_lock load_rest). Qed.
Print Assumptions C69_load_partial.

Example C69_load_case :
  let cs := [false; false; false; true; false; false; false; false; false] in
  runs load_call (trace_of load_call cs) (Returned false)
  /\ trace_of load_call cs =
     [EOpen RFilterLock; EOpen RCount; EOpen RValue; EOpen RReader; EUse RReader; EClose RReader; EClose RValue; EClose RFilterLock].
Proof. cbv zeta. split; [apply (interp_runs load_call); vm_compute; discriminate|vm_compute; reflexivity]. Qed.

(** Each load that succeeds keeps the value with the number of buckets, one that fails may keep a bucket and its decompressor too. *)
Theorem C69_load_refuted :
  (forall t, runs load_call t (Returned false) -> opens RCount t = S (closes RCount t))
  /\ (exists t, runs load_call t (Returned true) /\ closes RCount t = 0 /\ opens RCount t = 1 /\ opens RValue t = 1 /\ closes RValue t = 0
        /\ opens RReader t = 1 /\ closes RReader t = 0).
Proof. exact (conj load_count load_fails). Qed.
Print Assumptions C69_load_refuted.

(** ReIndex closes its iterator if it succeeds, AddIndex unlocks the table. *)
Theorem C69_reindex_partial :
  (forall t, runs reindex_call t (Returned false) -> released RIter t) /\ (forall t, runs add_index_call t (Returned false) -> released RTableLock t).
Proof. exact (conj reindex_iterator add_index_lock). Qed.
Print Assumptions C69_reindex_partial.

Example C69_reindex_case :
  let cs := [false; false; true; false; false; true; false; false; false; false; false; false] in
  runs reindex_call (trace_of reindex_call cs) (Returned false)
  /\ trace_of reindex_call cs = [EOpen RIter; EOpen RBatch; EUse RIter; EUse RBatch; EUse RBatch; EClose RIter; EClose RBatch].
Proof. cbv zeta. split; [apply (interp_runs reindex_call); vm_compute; discriminate|vm_compute; reflexivity]. Qed.

(** Neither if it fails; and of the batches of a ReIndex only the last is closed. *)
Theorem C69_reindex_refuted :
  (exists t, runs reindex_call t (Returned true) /\ opens RIter t = 1 /\ closes RIter t = 0)
  /\ (exists t, runs reindex_call t (Returned false) /\ opens RBatch t = 2 /\ closes RBatch t = 1)
  /\ (exists t, runs add_index_call t (Returned true) /\ t = [EOpen RTableLock]).
Proof. exact (conj reindex_fails (conj reindex_batches add_index_locked)). Qed.
Print Assumptions C69_reindex_refuted.

(** UnsafeUpdate never closes its own batch when it succeeds, and closes the caller's when the batch refuses a row. *)
Theorem C69_unsafe_update_refuted :
  (forall t, runs (unsafe_update_call false) t (Returned false) -> opens RBatch t = S (closes RBatch t))
  /\ (exists t, runs (unsafe_update_call true) t (Returned true) /\ In (EClose RGiven) t).
Proof. exact (conj unsafe_update_left unsafe_update_given). Qed.
Print Assumptions C69_unsafe_update_refuted.

(** An Open that fails after it has opened the store leaves it open, with the lock of the directory. *)
Theorem C69_open_refuted : exists t, runs open_call t (Returned true) /\ opens RStore t = 1 /\ closes RStore t = 0.
Proof. exact open_locked. Qed.
Print Assumptions C69_open_refuted.
