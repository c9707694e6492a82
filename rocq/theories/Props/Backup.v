(** Properties C46, C47: Dump, Restore and the discovery of indexes. *)

From Coq Require Import List NArith Bool Strings.String Strings.Byte.
From Verif.Model Require Import Bytes Go Keys Pebble Backup.
From Verif.Spec Require Import StoreSpec BackupSpec.
From Verif.Proofs Require Import BytesFacts PebbleFacts BackupFacts RestoreFacts BackupBugs.
Import ListNotations.
Local Open Scope list_scope.

(** C46. Dump of [tables] into a new directory and Restore of some of them, while other calls write to the database: every key of the
    requested tables (and indexes, if asked for) that the snapshot has gets the snapshot's value, every other key keeps its value. Missing:
    table ids one of which in decimal begins with another, not both asked for; directory names that contain "index" or the name of a
    requested table; an index that loses its last key between the snapshot and its discovery; keys of the target that the snapshot lacks. *)
Theorem C46_roundtrip_partial : forall full snap live root db tables want wiD wiR,
  kv_ok snap -> kv_ok db -> bond_keys snap -> (forall n, kv_ok (live n)) -> (forall n, bond_keys (live n)) -> NoDup tables -> incl want tables ->
  (wiR = true -> wiD = true) ->
  (wiR = true -> forall n t i rest v, nth_error tables n = Some t -> kv_get snap (t :: i :: rest) = Some v ->
   exists rest' v', kv_get (live n) (t :: i :: rest') = Some v') ->
  (forall r, In r want -> contains (table_dir r) root = false) -> (wiR = true \/ contains (str "index") root = false) ->
  (forall r d, In r want -> In d tables -> has_prefix (dec (b2n r)) (dec (b2n d)) = true -> In d want) ->
  exists d db', dump full snap live false wiD tables = (d, Ok tt) /\ restore root d db want wiR = (db', Ok tt) /\ kv_ok db' /\
  (forall k, wanted want wiR k -> kv_get db' k = match kv_get snap k with Some v => Some v | None => kv_get db k end) /\
  (forall k, ~ wanted want wiR k -> kv_get db' k = kv_get db k).
Proof. exact restore_ok. Qed.
Print Assumptions C46_roundtrip_partial.

(** C46. Into a database without keys of the requested tables, the restored part equals the snapshot; all table ids and names that
    [C46_roundtrip_partial] allows. *)
Theorem C46_fresh_target_partial : forall full snap root db tables want,
  kv_ok snap -> kv_ok db -> bond_keys snap -> NoDup tables -> incl want tables ->
  (forall r, In r want -> contains (table_dir r) root = false) ->
  (forall r d, In r want -> In d tables -> has_prefix (dec (b2n r)) (dec (b2n d)) = true -> In d want) ->
  (forall k, wanted want true k -> kv_get db k = None) ->
  exists d db', dump full snap (fun _ => snap) false true tables = (d, Ok tt) /\ restore root d db want true = (db', Ok tt) /\
  forall k, (wanted want true k -> kv_get db' k = kv_get snap k) /\ (~ wanted want true k -> kv_get db' k = kv_get db k).
Proof. exact restore_fresh. Qed.
Print Assumptions C46_fresh_target_partial.

(** C46. Restore of a table that the dump does not have fails and changes nothing. *)
Theorem C46_missing_table : forall full snap live root db tables want wiD wiR t,
  (forall n, kv_ok (live n)) -> (forall n, bond_keys (live n)) -> NoDup tables ->
  In t want -> ~ In t tables -> restore root (fst (dump full snap live false wiD tables)) db want wiR = (db, Err EOther).
Proof. exact restore_fails. Qed.
Print Assumptions C46_missing_table.

(** C46. A dump of a table twice fails. *)
Theorem C46_table_twice : forall full snap live wiD tables t l1 l2 l3,
  (forall n, kv_ok (live n)) -> (forall n, bond_keys (live n)) -> tables = l1 ++ t :: l2 ++ t :: l3 ->
  snd (dump full snap live false wiD tables) = Err EOther.
Proof. exact dump_twice. Qed.
Print Assumptions C46_table_twice.

(** A restore of tables 1 and 3 from a dump of tables 1, 2 and 25; a dump of tables 1, 2 and 1. *)
Example C46_missing_case : kv_ok some_tables /\ bond_keys some_tables /\
  snd (dump (fun _ => false) some_tables (fun _ => some_tables) false true [x01; x02; x19]) = Ok tt /\
  restore (str "/var/backup/monday") (fst (dump (fun _ => false) some_tables (fun _ => some_tables) false true [x01; x02; x19])) [] [x01; x03] true = ([], Err EOther) /\
  snd (dump (fun _ => false) some_tables (fun _ => some_tables) false true [x01; x02; x01]) = Err EOther.
Proof. split; [exact (proj1 some_tables_case)|]. split; [exact (proj1 (proj2 some_tables_case))|]. repeat split; vm_compute; reflexivity. Qed.

(** C46 is false: Restore of table 1 also brings back the rows of table 10. *)
Theorem C46_other_table_refuted : exists snap d, kv_ok snap /\ bond_keys snap /\ dump (fun _ => false) snap (fun _ => snap) false true [x01; x0a] = (d, Ok tt) /\
  exists db db' k, restore (str "/tmp/d") d db [x01] true = (db', Ok tt) /\ ~ wanted [x01] true k /\ kv_get db' k <> kv_get db k.
Proof. exact other_table. Qed.
Print Assumptions C46_other_table_refuted.

(** C46 is false: from a directory whose path contains "index", Restore without indexes restores nothing and succeeds. *)
Theorem C46_index_in_path_refuted : exists snap d, kv_ok snap /\ bond_keys snap /\ dump (fun _ => false) snap (fun _ => snap) false false [x01; x0a] = (d, Ok tt) /\
  restore (str "/tmp/reindexed") d [] [x01; x0a] false = ([], Ok tt) /\ exists k, wanted [x01; x0a] false k /\ kv_get snap k <> None.
Proof. exact index_in_path. Qed.
Print Assumptions C46_index_in_path_refuted.

(** C46 is false: from a directory whose path contains "table_1", Restore of table 1 restores all tables. *)
Theorem C46_table_in_path_refuted : exists snap d, kv_ok snap /\ bond_keys snap /\ dump (fun _ => false) snap (fun _ => snap) false true [x01; x02] = (d, Ok tt) /\
  exists db' k, restore (str "/tmp/table_1") d [] [x01] true = (db', Ok tt) /\ ~ wanted [x01] true k /\ kv_get db' k <> None.
Proof. exact table_in_path. Qed.
Print Assumptions C46_table_in_path_refuted.

(** C46 is false: a row of the target that the dump does not have stays. *)
Theorem C46_stale_rows_refuted : exists snap d db db' k, kv_ok snap /\ bond_keys snap /\ dump (fun _ => false) snap (fun _ => snap) false true [x01] = (d, Ok tt) /\
  restore (str "/tmp/d") d db [x01] true = (db', Ok tt) /\ wanted [x01] true k /\ kv_get snap k = None /\ kv_get db' k <> None.
Proof. exact stale_rows. Qed.
Print Assumptions C46_stale_rows_refuted.

(** C46 is false: an index whose keys are deleted between the snapshot and the discovery is missing in the dump, its rows are not. *)
Theorem C46_index_lost_refuted : exists snap live d db', kv_ok snap /\ bond_keys snap /\ (forall n, kv_ok (live n) /\ bond_keys (live n)) /\
  dump (fun _ => false) snap live false true [x01] = (d, Ok tt) /\ restore (str "/tmp/d") d [] [x01] true = (db', Ok tt) /\
  exists k, wanted [x01] true k /\ kv_get snap k <> None /\ kv_get db' k = None.
Proof. exact index_lost. Qed.
Print Assumptions C46_index_lost_refuted.

(** Tables 1, 2 and 25 with two indexes; tables 1 and 25 are restored; every file takes two pairs. *)
Example C46_case : kv_ok some_tables /\ bond_keys some_tables /\ NoDup [x01; x02; x19] /\ incl [x19; x01] [x01; x02; x19] /\
  (forall r, In r [x19; x01] -> contains (table_dir r) (str "/var/backup/monday") = false) /\
  (forall r d, In r [x19; x01] -> In d [x01; x02; x19] -> has_prefix (dec (b2n r)) (dec (b2n d)) = true -> In d [x19; x01]) /\
  exists d db', dump (fun f => Nat.leb 2 (List.length f)) some_tables (fun _ => some_tables) false true [x01; x02; x19] = (d, Ok tt) /\ List.length d = 16 /\
  restore (str "/var/backup/monday") d [] [x19; x01] true = (db', Ok tt) /\ db' = filter (fun e => negb (beqb (firstn 1 (fst e)) [x02])) some_tables.
Proof. exact some_tables_case. Qed.

(** C47. The ids found are those of the indexes in use, in increasing order, each once; for every database whose keys have two bytes
    or more (all keys that bond writes have six or more). *)
Theorem C47_index_ids : forall db t, kv_ok db -> (forall k v, kv_get db k = Some v -> 2 <= List.length k) ->
  exists l, get_index_ids db t = Ok l /\ indexes_in_use db t l.
Proof. exact get_index_ids_ok. Qed.
Print Assumptions C47_index_ids.

Example C47_case : get_index_ids some_tables x01 = Ok [x01; xff] /\ get_index_ids some_tables x02 = Ok [] /\ get_index_ids some_tables x19 = Ok [x03] /\
  get_index_ids some_tables xff = Ok [].
Proof. vm_compute. auto. Qed.
