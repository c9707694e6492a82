(** Property C74: Dump under every schedule of its goroutines and interrupted at every point. *)

From Coq Require Import List NArith Bool Strings.String Strings.Byte.
From Verif.Model Require Import Bytes Go Keys Pebble Backup DumpSteps.
From Verif.Spec Require Import StoreSpec BackupSpec.
From Verif.Proofs Require Import BytesFacts PebbleFacts RestoreFacts BackupBugs DumpStepsFacts DumpKeeps DumpStepsBugs.
Import ListNotations.
Local Open Scope list_scope.

(** C74. However the goroutines of a Dump interleave, if the call returns it returns what the model of C46, which writes one directory after
    the other, returns; without an error the directories are the same, and Restore of them is the Restore of C46. *)
Theorem C74_any_schedule : forall full snap live wi tables sched r, ds_main (run_dump full snap live false wi tables sched) = MEnd r ->
  snd (dump full snap live false wi tables) = r /\
  (r = Ok tt -> dump full snap live false wi tables = (tree_of (run_dump full snap live false wi tables sched), Ok tt) /\
   forall root db want wiR, restore_disk root (tree_of (run_dump full snap live false wi tables sched)) db want wiR =
                            restore root (fst (dump full snap live false wi tables)) db want wiR).
Proof. exact finished. Qed.
Print Assumptions C74_any_schedule.

(** C74. From every point, Dump can be continued to its end. *)
Theorem C74_dump_ends : forall full snap live wi tables sched,
  exists more r, ds_main (run_dump full snap live false wi tables (sched ++ more)) = MEnd r.
Proof. exact dump_ends. Qed.
Print Assumptions C74_dump_ends.

(** C74. Restore of what a Dump leaves that was interrupted anywhere (the process was killed) either fails and changes nothing, or it
    restores, of each table and index, the first keys of the snapshot up to some key, with the values of the snapshot, and changes nothing
    else; a table or index whose goroutine had finished is restored completely. Missing: that an unfinished table is refused (refuted below);
    the ids and directory names that C46 excludes. *)
Theorem C74_interrupted_partial : forall full snap live wi, (forall n, kv_ok (live n)) -> (forall n k v, kv_get (live n) k = Some v -> 2 <= List.length k) ->
  forall root want wiR, (forall r, In r want -> contains (table_dir r) root = false) -> wiR = true \/ contains (str "index") root = false ->
  kv_ok snap -> bond_keys snap -> forall tables sched db, kv_ok db ->
  (forall r d, In r want -> In d tables -> has_prefix (dec (b2n r)) (dec (b2n d)) = true -> In d want) ->
  let st := run_dump full snap live false wi tables sched in
  (exists e, restore_disk root (tree_of st) db want wiR = (db, Err e)) \/
  exists (db' : kv) (got : bytes -> bool), restore_disk root (tree_of st) db want wiR = (db', Ok tt) /\ kv_ok db' /\
  (forall k, kv_get db' k = if got k then kv_get snap k else kv_get db k) /\
  (forall k, got k = true -> wanted want wiR k /\ kv_get snap k <> None) /\
  (forall t i r r', got (t :: i :: r) = true -> kv_get snap (t :: i :: r') <> None -> blt r' r -> got (t :: i :: r') = true) /\
  (forall t i, dir_done st t i -> In t want -> i = x00 \/ wiR = true -> forall r, kv_get snap (t :: i :: r) <> None -> got (t :: i :: r) = true).
Proof. exact interrupted. Qed.
Print Assumptions C74_interrupted_partial.

(** C74. Which interrupted dumps Restore refuses: exactly those whose VERSION is not complete, that have no directory for the rows of a
    wanted table, or where a file of a wanted table (or of an index of it, if indexes are wanted) was being written. All others it takes,
    finished or not. Missing: the ids and directory names that C46 excludes. *)
Theorem C74_refused_exactly_partial : forall full snap live wi, (forall n, kv_ok (live n)) -> (forall n k v, kv_get (live n) k = Some v -> 2 <= List.length k) ->
  forall root want wiR, (forall r, In r want -> contains (table_dir r) root = false) -> wiR = true \/ contains (str "index") root = false ->
  kv_ok snap -> bond_keys snap -> forall tables sched db,
  (forall r d, In r want -> In d tables -> has_prefix (dec (b2n r)) (dec (b2n d)) = true -> In d want) ->
  let st := run_dump full snap live false wi tables sched in
  snd (restore_disk root (tree_of st) db want wiR) = Ok tt <->
  (exists v, ds_version st = Some v /\ 4 <= List.length v) /\ (forall t, In t want -> dir_made st t x00) /\
  (forall t i, In t want -> i = x00 \/ wiR = true -> ~ dir_writing st t i).
Proof. exact refused_exactly. Qed.
Print Assumptions C74_refused_exactly_partial.

(** C74. At no point a path occurs twice in the dump directory, and what is there stays there: every path, every directory and every sst
    file that was closed, with its pairs, whatever happens next. *)
Theorem C74_files_stay : forall full snap live ex wi tables sched,
  NoDup (map fst (tree_of (run_dump full snap live ex wi tables sched))) /\
  forall more p,
  let d := tree_of (run_dump full snap live ex wi tables sched) in
  let d' := tree_of (run_dump full snap live ex wi tables (sched ++ more)) in
  (In p (map fst d) -> In p (map fst d')) /\ (In (p, NDir) d -> In (p, NDir) d') /\ (forall f, In (p, NSst f) d -> In (p, NSst f) d').
Proof. exact (fun f s l e w t h => conj (dump_distinct f s l e w t h) (dump_keeps f s l e w t h)). Qed.
Print Assumptions C74_files_stay.

(** C74. Dump to a path that exists returns an error with its first step and writes nothing, under every schedule. *)
Theorem C74_existing_refused : forall full snap live wi tables sched,
  let st := run_dump full snap live true wi tables sched in
  tree_of st = [] /\ (In DMain sched -> ds_main st = MEnd (Err EOther)) /\ (~ In DMain sched -> forall r, ds_main st <> MEnd r).
Proof. exact existing_dir. Qed.
Print Assumptions C74_existing_refused.

Example C74_existing_case : tree_of (run_dump (fun _ => false) some_tables (fun _ => some_tables) true true [x01; x02] [DWriter 0; DMain; DWriter 1; DMain]) = [] /\
  ds_main (run_dump (fun _ => false) some_tables (fun _ => some_tables) true true [x01; x02] [DWriter 0; DMain; DWriter 1; DMain]) = MEnd (Err EOther).
Proof. split; vm_compute; reflexivity. Qed.

(** Tables 1, 2 and 25 with their indexes, all goroutines in turns. *)
Example C74_case : kv_ok some_tables /\ bond_keys some_tables /\ ds_main (drun true [x01; x02; x19] turns) = MEnd (Ok tt) /\
  List.length (tree_of (drun true [x01; x02; x19] turns)) = 16 /\
  restore_disk (str "/var/backup/monday") (tree_of (drun true [x01; x02; x19] turns)) [] [x19; x01] true =
    (filter (fun e => negb (beqb (firstn 1 (fst e)) [x02])) some_tables, Ok tt).
Proof. exact turns_case. Qed.

(** Interrupted when table 1 was finished and table 2 in the middle of a file: table 1 is restored, table 2 is refused. *)
Example C74_interrupted_case : (forall r, In r [x01] -> contains (table_dir r) (str "/var/backup/monday") = false) /\
  (forall r d, In r [x01] -> In d [x01; x02; x19] -> has_prefix (dec (b2n r)) (dec (b2n d)) = true -> In d [x01]) /\
  dir_done (drun false [x01; x02; x19] stopped) x01 x00 /\ ~ dir_done (drun false [x01; x02; x19] stopped) x02 x00 /\
  restore_disk (str "/var/backup/monday") (tree_of (drun false [x01; x02; x19] stopped)) [] [x01] false =
    ([row x01 x01 x0a; row x01 x02 x0b; row x01 x03 x0c], Ok tt) /\
  restore_disk (str "/var/backup/monday") (tree_of (drun false [x01; x02; x19] stopped)) [] [x02; x19] false = ([], Err EOther).
Proof. exact stopped_case. Qed.

(** C74 is false: a dump that was interrupted before the first file of a table is restored without an error and without rows. *)
Theorem C74_nothing_restored_refuted : exists sched k, wanted [x01] false k /\ kv_get some_tables k <> None /\
  restore_disk (str "/tmp/d") (tree_of (drun false [x01] sched)) [] [x01] false = ([], Ok tt).
Proof. exact nothing_restored. Qed.
Print Assumptions C74_nothing_restored_refuted.

(** C74 is false: interrupted between two files of a table, the dump is restored without an error and with some of the rows. *)
Theorem C74_half_restored_refuted : exists sched k k', wanted [x01] false k /\ wanted [x01] false k' /\ kv_get some_tables k' <> None /\
  exists db', restore_disk (str "/tmp/d") (tree_of (drun false [x01] sched)) [] [x01] false = (db', Ok tt) /\
  kv_get db' k = kv_get some_tables k /\ kv_get db' k <> None /\ kv_get db' k' = None.
Proof. exact half_restored. Qed.
Print Assumptions C74_half_restored_refuted.

(** C74 is false: interrupted before the directory of an index was made, Restore with indexes succeeds, has all rows and an empty index. *)
Theorem C74_index_missing_refuted : exists sched k, wanted [x01] true k /\ kv_get some_tables k <> None /\
  exists db', restore_disk (str "/tmp/d") (tree_of (drun true [x01] sched)) [] [x01] true = (db', Ok tt) /\
  (forall r, kv_get some_tables (x01 :: x00 :: r) <> None -> kv_get db' (x01 :: x00 :: r) = kv_get some_tables (x01 :: x00 :: r)) /\ kv_get db' k = None.
Proof. exact index_missing. Qed.
Print Assumptions C74_index_missing_refuted.

(** C74 is false: after Dump has returned an error its goroutines still write into the directory. *)
Theorem C74_still_writing_refuted : exists sched c, ds_main (drun false [x01; x01] sched) = MEnd (Err EOther) /\
  tree_of (drun false [x01; x01] (sched ++ [c])) <> tree_of (drun false [x01; x01] sched).
Proof. exact still_writing. Qed.
Print Assumptions C74_still_writing_refuted.
