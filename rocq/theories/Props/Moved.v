(** Property C95: a table that was dumped and restored answers as it did. *)

From Coq Require Import List NArith Bool Strings.String Strings.Byte.
From Verif.Model Require Import Bytes Go Keys Pebble Index Table ReIndex Backup.
From Verif.Spec Require Import KeySpec StoreSpec TableSpec HistSpec BackupSpec MovedSpec.
From Verif.Proofs Require Import Witness TableBugs ReIndexBugs MovedFacts MovedBugs.
Import ListNotations.
Local Open Scope list_scope.

(** C95. Dump and Restore of tables with their indexes, while other calls write to the source: a table that the target does not have yet holds afterwards the rows
    of the snapshot with exact indexes, every Get answers as in the snapshot, for every filter that covers the restored rows, and no key outside of the requested
    tables changes. Missing: what [C46_roundtrip_partial] lacks; a target with rows, false, see [C95_over_rows_refuted]; a filter from before the restore, false, see
    [C95_filter_refuted]. *)
Theorem C95_moved_partial : forall T F (tb : table T F), good_table tb -> forall snap live root tables want full db fl m,
  movable snap live root tables want true -> In (t_id tb) want -> kv_ok db -> (forall i rest, kv_get db (t_id tb :: i :: rest) = None) -> consistent tb snap fl m ->
  exists d db', dump full snap live false true tables = (d, Ok tt) /\ restore root d db want true = (db', Ok tt) /\
  (forall k, ~ wanted want true k -> kv_get db' k = kv_get db k) /\
  forall fl', covers tb fl' db' -> consistent tb db' fl' m /\ forall r, get_point tb db' fl' None r = get_point tb snap fl None r.
Proof. exact @moved. Qed.
Print Assumptions C95_moved_partial.

(** C95. Dump and Restore without indexes, then AddIndex of all indexes with reIndex to the table without indexes: the keys of the table are those of the snapshot, index entries
    included. Missing: as in [C95_moved_partial]; index 255. *)
Theorem C95_moved_bare_partial : forall T F (tb : table T F), good_table tb -> forall snap live root tables want full rev db fl m,
  movable snap live root tables want false -> In (t_id tb) want -> kv_ok db -> (forall i rest, kv_get db (t_id tb :: i :: rest) = None) -> consistent tb snap fl m ->
  (forall n, r_write rev n = true) -> (forall ix, In ix (t_indexes tb) -> ix_id ix <> xff) ->
  exists d db1 db', dump full snap live false false tables = (d, Ok tt) /\ restore root d db want false = (db1, Ok tt) /\
  add_index_call rev (with_indexes tb []) (IxState [] false) db1 (t_indexes tb) true = (IxState (t_indexes tb) false, db', Ok tt) /\
  (forall k, in_table (schema_of tb) k -> kv_get db' k = kv_get snap k) /\
  forall fl', covers tb fl' db' -> consistent tb db' fl' m /\ forall r, get_point tb db' fl' None r = get_point tb snap fl None r.
Proof. exact @moved_bare. Qed.
Print Assumptions C95_moved_bare_partial.

(** Three accounts; a fourth is inserted during the dump; the target has tables 1 and 9. *)
Example C95_moved_case : good_table accts /\ (forall wi, movable abc_db (fun _ => four_db) monday [x07] [x07] wi) /\ In (t_id accts) [x07] /\ kv_ok target /\
  (forall i rest, kv_get target (t_id accts :: i :: rest) = None) /\ consistent accts abc_db tt (puts asc empty_map abc) /\
  (forall db, covers accts tt db) /\ List.length abc_db = 8 /\ List.length four_db = 11 /\
  (forall n, r_write re_quiet n = true) /\ (forall ix, In ix (t_indexes accts) -> ix_id ix <> xff).
Proof.
  split; [exact accts_good|]. split; [exact abc_movable|]. split; [now left|]. split; [apply BackupBugs.kv_ok_check; vm_compute; reflexivity|]. split; [exact target_free|].
  split; [exact abc_stored|]. split; [intros db; now apply covers_none|]. split; [vm_compute; reflexivity|]. split; [vm_compute; reflexivity|]. split; [reflexivity|].
  intros ix [<-|[<-|[]]]; discriminate.
Qed.

(** C95 is false for a table whose filter was made before the restore: Get does not find a restored row, and Insert accepts its key and leaves the old index entries. *)
Theorem C95_filter_refuted : exists (tb : table acct (list bytes)) src flS m fl d (r : acct), good_table tb /\ consistent tb src flS m /\ consistent tb [] fl empty_map /\
  dump (fun _ => false) src (fun _ => src) false true [t_id tb] = (d, Ok tt) /\ restore monday d [] [t_id tb] true = (src, Ok tt) /\
  get_point tb src flS None r = Ok (Acct 1 10 6 true) /\ get_point tb src fl None r = Err ENotFound /\
  exists w, insert tb (demo_env 2) src fl None [Acct 1 12 9 true] = (w, Ok tt) /\ forall m', ~ Rep (schema_of tb) (r_db w) m'.
Proof. exact filter_unaware. Qed.
Print Assumptions C95_filter_refuted.

(** C95 is false for a target that has rows of the table: the restored rows replace rows of which the index entries stay. *)
Theorem C95_over_rows_refuted : exists (tb : table acct unit) src own m mo d db', good_table tb /\ consistent tb src tt m /\ consistent tb own tt mo /\
  dump (fun _ => false) src (fun _ => src) false true [t_id tb] = (d, Ok tt) /\ restore monday d own [t_id tb] true = (db', Ok tt) /\ forall m', ~ Rep (schema_of tb) db' m'.
Proof. exact over_rows. Qed.
Print Assumptions C95_over_rows_refuted.
