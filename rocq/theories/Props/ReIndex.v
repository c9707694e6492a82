(** Properties C36, C37: adding and rebuilding indexes. *)

From Coq Require Import List NArith Bool.
From Verif.Model Require Import Bytes Go Keys Pebble Index Table ReIndex.
From Verif.Spec Require Import KeySpec StoreSpec TableSpec HistSpec ReIndexSpec.
From Verif.Proofs Require Import TableFacts Witness TableBugs ReIndexFacts ReIndexBugs.
Import ListNotations.

(** C36. ReIndex of any indexes with ids 1..254 in any store that holds the rows [m]: it succeeds if its writes do, afterwards the
    store holds exactly the entries of the rows (whatever the indexes held before), and nothing else changed. *)
Theorem C36_reindex_exact_partial : forall (T F : Type) (tb : table T F) idxs, lawful (with_indexes tb idxs) ->
  forall ev db (m : tmap T), kv_ok db -> ser_fresh tb -> Rep (schema_of (with_indexes tb [])) db m -> (forall n, r_write ev n = true) ->
  (forall pk r, m pk = Some r -> row_ok (schema_of (with_indexes tb idxs)) r) -> (forall ix, In ix idxs -> ix_id ix <> xff) ->
  exists db', re_index ev tb db idxs = (db', Ok tt) /\ kv_ok db' /\ Rep (schema_of (with_indexes tb idxs)) db' m /\
  forall k, ~ index_area (t_id tb) idxs k -> kv_get db' k = kv_get db k.
Proof. exact @re_index_exact. Qed.
Print Assumptions C36_reindex_exact_partial.

(** C36. Whatever fails (a write, or a row that cannot be decoded), rows, other indexes and other tables are as before. *)
Theorem C36_rows_untouched : forall (T F : Type) (tb : table T F) idxs, lawful (with_indexes tb idxs) ->
  forall ev db, kv_ok db -> kv_ok (fst (re_index ev tb db idxs)) /\
  forall k, ~ index_area (t_id tb) idxs k -> kv_get (fst (re_index ev tb db idxs)) k = kv_get db k.
Proof. exact @re_index_outside. Qed.
Print Assumptions C36_rows_untouched.

(** C36. Interrupted after any number of writes (or not at all) and repeated, ReIndex gives the same store as in one go. *)
Theorem C36_reindex_again_partial : forall (T F : Type) (tb : table T F) idxs, lawful (with_indexes tb idxs) ->
  forall ev1 ev2 ev3 db (m : tmap T), kv_ok db -> ser_fresh tb -> Rep (schema_of (with_indexes tb [])) db m ->
  (forall n, r_write ev2 n = true) -> (forall n, r_write ev3 n = true) ->
  (forall pk r, m pk = Some r -> row_ok (schema_of (with_indexes tb idxs)) r) -> (forall ix, In ix idxs -> ix_id ix <> xff) ->
  re_index ev2 tb (fst (re_index ev1 tb db idxs)) idxs = re_index ev3 tb db idxs.
Proof. exact @re_index_again. Qed.
Print Assumptions C36_reindex_again_partial.

(** C36. AddIndex with reIndex keeps a consistent table consistent, now with the new indexes. *)
Theorem C36_add_index_consistent_partial : forall (T F : Type) (tb : table T F) ev db fl (m : tmap T) idxs,
  let tb' := with_indexes tb (t_indexes tb ++ idxs) in
  lawful tb' -> ser_fresh tb -> consistent tb db fl m -> (forall n, r_write ev n = true) ->
  (forall pk r, m pk = Some r -> row_ok (schema_of tb') r) -> (forall ix, In ix idxs -> ix_id ix <> xff) ->
  exists db', add_index_call ev tb (IxState (t_indexes tb) false) db idxs true = (IxState (t_indexes tb ++ idxs) false, db', Ok tt) /\
  consistent tb' db' fl m /\ forall k, ~ index_area (t_id tb) idxs k -> kv_get db' k = kv_get db k.
Proof. exact @add_index_consistent. Qed.
Print Assumptions C36_add_index_consistent_partial.

(** C36 is false for index id 255: whatever entry it held that belongs to no row is still there after a successful ReIndex. *)
Theorem C36_index_255_refuted : forall (T F : Type) (tb : table T F) idxs ev db (m : tmap T) ix rest v,
  lawful (with_indexes tb idxs) -> kv_ok db -> ser_fresh tb ->
  Rep (schema_of (with_indexes tb [])) db m -> (forall n, r_write ev n = true) -> In ix idxs -> ix_id ix = xff ->
  kv_get db (t_id tb :: xff :: rest) = Some v ->
  (~ exists r, m (s_pk (schema_of tb) r) = Some r /\ ix_filter ix r = true /\ t_id tb :: xff :: rest = entry_key (schema_of tb) (sindex_of ix) r) ->
  exists db', re_index ev tb db idxs = (db', Ok tt) /\ kv_get db' (t_id tb :: xff :: rest) = Some v.
Proof. exact @re_index_ff. Qed.
Print Assumptions C36_index_255_refuted.

(** C36. AddIndex accepts an index with id 0; ReIndex of it deletes all rows of the table and reports success. *)
Theorem C36_index_zero_erases_refuted : forall (T F : Type) (tb : table T F) ev db ix, kv_ok db -> ix_id ix = x00 -> (forall n, r_write ev n = true) ->
  exists db', re_index ev tb db [ix] = (db', Ok tt) /\ forall rest, kv_get db' (t_id tb :: x00 :: rest) = None.
Proof. exact @re_index_zero. Qed.
Print Assumptions C36_index_zero_erases_refuted.

(** The demo table with three rows gets an index of id 5, of which a stray entry is in the store; ReIndex is first interrupted. *)
Example C36_case : let tb' := more_accts x05 in let db := kv_set abc_db (spec_key x07 x05 [x01; x09] [] [x09]) [] in
  lawful tb' /\ consistent accts abc_db tt (puts (schema_of accts) empty_map abc) /\ (forall r, row_ok (schema_of tb') r) /\
  snd (re_index (REnv (fun n => Nat.ltb n 2) 2) accts db [acct_by_flag x05]) = Err ECommit /\
  exists db', re_index re_quiet accts db [acct_by_flag x05] = (db', Ok tt) /\
  kv_get db' (spec_key x07 x05 [x01; x09] [] [x09]) = None /\
  map (fun r => kv_get db' (entry_key (schema_of accts) (sindex_of (acct_by_flag x05)) r)) abc = [Some []; Some []; Some []] /\
  length db' = length abc_db + 3.
Proof.
  cbv zeta. split; [apply more_lawful; discriminate|]. split; [exact abc_stored|]. split; [apply more_row_ok|]. split; [vm_compute; reflexivity|].
  eexists. split; [vm_compute; reflexivity|]. vm_compute. auto.
Qed.

(** The hypotheses of the refutations are met: a stale entry of index 255 in an empty table; index id 0 for the table with three rows. *)
Example C36_refuted_case : lawful (with_indexes accts [acct_by_flag xff]) /\ ser_fresh accts /\ Rep (schema_of (with_indexes accts [])) stale_ff empty_map /\
  re_index re_quiet accts stale_ff [acct_by_flag xff] = (stale_ff, Ok tt) /\ stale_ff <> [] /\
  re_index re_quiet accts abc_db [acct_by_flag x00] = (filter (fun e => negb (beqb (firstn 2 (fst e)) [x07; x00])) abc_db, Ok tt).
Proof.
  split; [apply flag_lawful; discriminate|]. split; [exact accts_fresh|]. split; [exact stale_ff_rows|].
  split; [vm_compute; reflexivity|]. split; [discriminate|]. vm_compute. reflexivity.
Qed.

(** C37. AddIndex without a duplicate id adds exactly the given indexes and leaves the table usable. *)
Theorem C37_add_index_partial : forall (T : Type) (st : ix_state T) idxs, xs_held st = false -> NoDup (map ix_id idxs) ->
  (forall j, In j idxs -> ~ In (ix_id j) (map ix_id (xs_map st))) ->
  add_index st idxs = (IxState (xs_map st ++ idxs) false, Ok tt).
Proof. exact @add_index_ok. Qed.
Print Assumptions C37_add_index_partial.

(** C37. The other case always has a first duplicate. *)
Theorem C37_duplicate_or_not : forall (T : Type) (m idxs : list (index T)), NoDup (map ix_id m) ->
  NoDup (map ix_id (m ++ idxs)) \/ exists before ix after, first_duplicate m idxs before ix after.
Proof. exact @dup_or_not. Qed.
Print Assumptions C37_duplicate_or_not.

(** C37 is false: with any duplicate, AddIndex returns the error but keeps the lock, so that every later call on the table (AddIndex,
    Indexes, Insert, Update, Upsert, Delete) waits forever; and the indexes in front of the duplicate have been added. *)
Theorem C37_duplicate_blocks_refuted : forall (T : Type) (st : ix_state T) idxs before ix after, xs_held st = false ->
  first_duplicate (xs_map st) idxs before ix after -> let st' := fst (add_index st idxs) in
  snd (add_index st idxs) = Err (EDuplicateIndex (ix_id ix)) /\ (forall l, add_index st' l = (st', Diverge)) /\
  (forall A (f : list (index T) -> res A), with_read_lock st' f = Diverge) /\ xs_map st' = xs_map st ++ before.
Proof. exact @add_index_blocks. Qed.
Print Assumptions C37_duplicate_blocks_refuted.

Example C37_case : let st := IxState (t_indexes accts) false in
  first_duplicate (xs_map st) [acct_by_flag x05; acct_by_flag x02; acct_by_flag x06] [acct_by_flag x05] (acct_by_flag x02) [acct_by_flag x06] /\
  map ix_id (xs_map (fst (add_index st [acct_by_flag x05; acct_by_flag x02; acct_by_flag x06]))) = [x01; x02; x05] /\
  snd (add_index st [acct_by_flag x05; acct_by_flag x06]) = Ok tt.
Proof.
  cbv zeta. split.
  - split; [reflexivity|]. split; [repeat constructor; easy|]. split; [intros j [<-|[]]; cbn; intuition discriminate|cbn; auto].
  - split; reflexivity.
Qed.
