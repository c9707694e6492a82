(** What the functions open and close: iterators, batches, values, locks, the store. *)

From Coq Require Import List Bool.
Import ListNotations.

(** The things a call can hold. [RGiven] is the batch its caller gives it, [RIter] an iterator, [RInner] one used meanwhile, [RValue] what Get returns with a closer, [RCount] the
    same for the number of buckets, [RReader] a decompressor, [RStore] the pebble database, which holds the lock of its directory. *)
Inductive res_var := RGiven | RBatch | RIter | RInner | RValue | RCount | RReader | RSnapshot | RFile | RStore | RTableLock | RFilterLock.

Definition var_eqb (x y : res_var) : bool :=
  match x, y with
  | RGiven, RGiven | RBatch, RBatch | RIter, RIter | RInner, RInner | RValue, RValue | RCount, RCount | RReader, RReader | RSnapshot, RSnapshot | RFile, RFile | RStore, RStore
  | RTableLock, RTableLock | RFilterLock, RFilterLock => true
  | _, _ => false
  end.

(** Go functions, as far as they matter here. [User] is code of the caller or of a serializer, which may panic. A condition is left open: [Or]. A loop runs
    any number of times. [Call f e] runs the function f and, if it returns an error, e. A deferred Close is run when the function ends, the last first. *)
Inductive stmt :=
  | Skip | Open (x : res_var) | Close (x : res_var) | Use (x : res_var) | Defer (x : res_var) | User | Ret (err : bool)
  | Seq (a b : stmt) | Or (a b : stmt) | Loop (a : stmt) | Call (f e : stmt).

Declare Scope go_scope.
Delimit Scope go_scope with go.
Notation "a ;; b" := (Seq a b) (at level 90, right associativity) : go_scope.
Bind Scope go_scope with stmt.
Local Open Scope go_scope.

Inductive event := EOpen (x : res_var) | EClose (x : res_var) | EUse (x : res_var).
Inductive outcome := Next | Returned (err : bool) | Panicked.

(** The executions: the events, the closes deferred and how it ends. *)
Inductive exec : stmt -> list event -> list res_var -> outcome -> Prop :=
  | x_skip : exec Skip [] [] Next
  | x_open x : exec (Open x) [EOpen x] [] Next
  | x_close x : exec (Close x) [EClose x] [] Next
  | x_use x : exec (Use x) [EUse x] [] Next
  | x_defer x : exec (Defer x) [] [x] Next
  | x_user : exec User [] [] Next
  | x_panic : exec User [] [] Panicked
  | x_ret err : exec (Ret err) [] [] (Returned err)
  | x_seq a b t1 d1 t2 d2 o : exec a t1 d1 Next -> exec b t2 d2 o -> exec (Seq a b) (t1 ++ t2) (d2 ++ d1) o
  | x_seq_end a b t d o : exec a t d o -> o <> Next -> exec (Seq a b) t d o
  | x_left a b t d o : exec a t d o -> exec (Or a b) t d o
  | x_right a b t d o : exec b t d o -> exec (Or a b) t d o
  | x_loop_end a : exec (Loop a) [] [] Next
  | x_loop a t1 d1 t2 d2 o : exec a t1 d1 Next -> exec (Loop a) t2 d2 o -> exec (Loop a) (t1 ++ t2) (d2 ++ d1) o
  | x_loop_stop a t d o : exec a t d o -> o <> Next -> exec (Loop a) t d o
  | x_call f e t d o : exec f t d o -> o = Next \/ o = Returned false -> exec (Call f e) (t ++ map EClose d) [] Next
  | x_call_err f e t d t2 d2 o : exec f t d (Returned true) -> exec e t2 d2 o -> exec (Call f e) (t ++ map EClose d ++ t2) d2 o
  | x_call_panic f e t d : exec f t d Panicked -> exec (Call f e) (t ++ map EClose d) [] Panicked.

(** A function called from outside. *)
Definition runs (f : stmt) (t : list event) (o : outcome) : Prop :=
  exists t0 d, exec f t0 d o /\ t = t0 ++ map EClose d.

(** "if err != nil { return err }" *)
Definition may_fail : stmt := Or (Ret true) Skip.
Definition either : stmt := Or (Ret true) (Ret false).

(** ** Tables *)

(** The batch that is written to: the one given or a new one that is closed at the end; /repo/table.go:349-355 and alike. *)
Definition the_batch (ext : bool) : res_var := if ext then RGiven else RBatch.
Definition get_batch (ext : bool) : stmt := if ext then Skip else Open RBatch ;; Defer RBatch.
(** "if !externalBatch { batch.Commit }", /repo/table.go:442-447 and alike. *)
Definition commit (ext : bool) : stmt := if ext then Skip else Use RBatch ;; may_fail.
(** The copy of the indexes under the lock, /repo/table.go:339-342 and alike. *)
Definition copy_indexes : stmt := Open RTableLock ;; Close RTableLock.

(** One row: the context, the old row, the serializer, Set, the indexes; /repo/table.go:399-433, 516-558, 701-773. *)
Definition write_row (ext : bool) : stmt :=
  may_fail ;; User ;; Use RIter ;; may_fail ;; User ;; may_fail ;; Use (the_batch ext) ;; may_fail ;; Loop (User ;; Use (the_batch ext) ;; may_fail) ;; User.

(** Insert, Update and Upsert are alike: /repo/table.go:338-450, 452-575, 637-789. The pooled buffers are in Model/Pool. *)
Definition write_call (ext : bool) : stmt :=
  copy_indexes ;; get_batch ext ;;
  Loop (Call (User ;; Open RIter ;; Defer RIter ;; Loop (write_row ext) ;; Ret false) (Ret true)) ;;
  commit ext ;; Ret false.

(** /repo/table.go:577-635. *)
Definition delete_call (ext : bool) : stmt :=
  copy_indexes ;; get_batch ext ;;
  Loop (may_fail ;; User ;; Use (the_batch ext) ;; may_fail ;; Loop (User ;; Use (the_batch ext) ;; may_fail)) ;;
  commit ext ;; Ret false.

(** UnsafeInsert, /repo/table_unsafe.go:113-203. *)
Definition unsafe_insert_call (ext : bool) : stmt :=
  copy_indexes ;; get_batch ext ;;
  Loop (Call (User ;; Loop (may_fail ;; User ;; may_fail ;; Use (the_batch ext) ;; may_fail ;; Loop (User ;; Use (the_batch ext) ;; may_fail)) ;; Ret false) (Ret true)) ;;
  commit ext ;; Ret false.

(** UnsafeUpdate, /repo/table_unsafe.go:20-103: the batch is not closed at the end, but if Set or Commit fails. *)
Definition unsafe_update_call (ext : bool) : stmt :=
  may_fail ;; copy_indexes ;; (if ext then Skip else Open RBatch) ;;
  Loop (may_fail ;; User ;; may_fail ;; Use (the_batch ext) ;; Or (Close (the_batch ext) ;; Ret true) Skip ;;
        Loop (User ;; Use (the_batch ext) ;; may_fail)) ;;
  (if ext then Skip else Use RBatch ;; Or (Close RBatch ;; Ret true) Skip) ;; Ret false.

(** db.Get with its closer, /repo/bond.go:242-249: an error or a value. *)
Definition db_get (e : stmt) : stmt := Or e (Open RValue).

(** Exist, /repo/table.go:791-816. *)
Definition exist_call : stmt := User ;; Or (Ret false) Skip ;; db_get (Ret false) ;; Close RValue ;; Ret false.

(** get for several keys, /repo/table.go:941-990. *)
Definition get_keys : stmt := Or (Ret false) Skip ;; Open RIter ;; Defer RIter ;; Loop (User ;; may_fail ;; Use RIter ;; may_fail) ;; Ret false.

(** An iterator moves, /repo/iter.go:88-149: one over several selections may close the pebble iterator and open the next any number of times. *)
Definition move (multi : bool) (x : res_var) : stmt := if multi then Or Skip (Use x) ;; Loop (Close x ;; Open x ;; Use x) else Use x.

(** scanForEachPrimaryIndex, /repo/table.go:1027-1071: the callback may get the row as often as it likes. *)
Definition scan_primary (multi : bool) : stmt :=
  User ;; Open RIter ;; move multi RIter ;;
  Loop (Use RIter ;; Or (Close RIter ;; Ret true) Skip ;;
        Loop (Use RIter ;; User) ;; Or (Close RIter ;; either) Skip ;; move multi RIter) ;;
  Close RIter ;; either.

(** get again, while the iterator of the scan is open. *)
Definition get_rows : stmt := Or (Ret false) Skip ;; Open RInner ;; Defer RInner ;; Loop (User ;; may_fail ;; Use RInner ;; may_fail) ;; Ret false.

(** scanForEachSecondaryIndex, /repo/table.go:1073-1194: Lazy.Get moves the iterator and reads the rows, later calls decode one. *)
Definition scan_secondary (multi : bool) : stmt :=
  User ;; Open RIter ;; move multi RIter ;;
  Loop (Use RIter ;; Or (Close RIter ;; Ret true) Skip ;;
        Loop (Loop (Use RIter ;; move multi RIter) ;; Call get_rows Skip ;; User) ;; User ;; Or (Close RIter ;; either) Skip ;;
        Loop (User ;; Or (Close RIter ;; either) Skip) ;; move multi RIter) ;;
  Close RIter ;; either.

(** Get, /repo/table.go:848-939: one row, several rows, a scan. *)
Definition get_call (multi : bool) : stmt :=
  Or (User ;; Or (Ret true) Skip ;; db_get (Ret true) ;; Defer RValue ;; User ;; either)
 (Or (User ;; Call get_keys (Ret true) ;; User ;; either)
     (Call (scan_primary multi) (Ret true) ;; Ret false)).

(** Intersect, /repo/index.go:355-405. *)
Definition intersect_scan (multi : bool) : stmt :=
  User ;; Open RIter ;; move multi RIter ;; Loop (Use RIter ;; Or (Close RIter ;; Ret true) Skip ;; move multi RIter) ;; Close RIter.
Definition intersect (multi : bool) : stmt := intersect_scan multi ;; Loop (intersect_scan multi) ;; Ret false.

(** Execute, /repo/query.go:155-473: a scan with the query's callback or an intersection and the rows of its keys. *)
Definition query_call (multi : bool) : stmt :=
  Or (may_fail ;; Or (Call (scan_primary multi) (Ret true)) (Call (scan_secondary multi) (Ret true)) ;; User ;; Ret false)
     (may_fail ;; Call (intersect multi) (Ret true) ;; Or (Ret false) Skip ;; Call get_keys (Ret true) ;; User ;; either).

(** A caller's walk of an iterator that ends with Close: /repo/iter.go:79-190. *)
Definition walk_call (multi : bool) : stmt := User ;; Open RIter ;; Loop (move multi RIter) ;; Close RIter ;; Ret false.

(** ReIndex, /repo/table.go:265-336. The batch is closed at the end, that is the last one; the iterator if all went well. *)
Definition reindex_call : stmt :=
  Loop may_fail ;; User ;; Open RIter ;; Open RBatch ;; Defer RBatch ;;
  Loop (Use RIter ;; User ;; may_fail ;; Loop (User ;; Use RBatch ;; may_fail) ;; Or (Use RBatch ;; may_fail ;; Open RBatch) Skip) ;;
  Use RBatch ;; may_fail ;; Close RIter ;; Ret false.

(** AddIndex, /repo/table.go:248-263. *)
Definition add_index_call : stmt :=
  Open RTableLock ;; Loop may_fail ;; Close RTableLock ;; Or (Call reindex_call (Ret true) ;; Ret false) (Ret false).

(** ** The database *)

(** Version, /repo/version.go:15-24. *)
Definition version_call : stmt := db_get (Ret false) ;; Defer RValue ;; Use RValue ;; Ret false.

(** Open, /repo/bond.go:138-232: nothing is closed if the data version is wrong or can not be written. *)
Definition open_call : stmt :=
  Loop may_fail ;; Or (Ret true) (Open RStore) ;;
  Call version_call Skip ;; Or (Call version_call Skip ;; Or (Ret false) (Use RStore ;; may_fail)) (Call version_call Skip ;; may_fail) ;; Ret false.

(** MigratePebbleFormatVersion, /repo/bond.go:584-608. *)
Definition migrate_call : stmt := may_fail ;; Or (Ret true) (Open RStore) ;; Defer RStore ;; Or (Ret true) (Open RFile) ;; Defer RFile ;; Use RFile ;; either.

(** getIndexIDS, /repo/bond.go:501-523. *)
Definition index_ids_call : stmt := Open RIter ;; Loop (Use RIter) ;; Ret false.

(** iteratorToSST, /repo/bond.go:525-558; the iterator is the one that Dump opened. *)
Definition to_sst : stmt :=
  Defer RIter ;; Or (Ret true) (Open RFile) ;;
  Loop (Use RIter ;; Use RFile ;; may_fail ;; Or (Close RFile ;; may_fail ;; Or (Ret true) (Open RFile)) Skip) ;;
  Close RFile ;; either.

(** Dump, /repo/bond.go:378-439, one file after the other instead of all at once. *)
Definition dump_call (indexes : bool) : stmt :=
  may_fail ;; may_fail ;; Open RSnapshot ;; Defer RSnapshot ;;
  Loop (may_fail ;; Use RSnapshot ;; may_fail ;; Open RIter ;; Call to_sst (Ret true) ;;
        (if indexes then Call index_ids_call Skip ;; Loop (may_fail ;; Use RSnapshot ;; may_fail ;; Open RIter ;; Call to_sst (Ret true)) else Skip)) ;;
  Ret false.

(** ** Filters *)

(** /repo/bloom/bloom_filter.go:79-90. *)
Definition filter_call : stmt := Open RFilterLock ;; Defer RFilterLock ;; User ;; Ret false.

(** Load, /repo/bloom/bloom_filter.go:92-135: the closer of the number of buckets is used if the number is wrong. Decoding it may panic. *)
Definition load_call : stmt :=
  Open RFilterLock ;; Defer RFilterLock ;;
  Or (Ret true) (Open RCount ;; User ;; Or (Close RCount ;; Ret true) Skip) ;;
  Loop (db_get (Ret true) ;; may_fail ;; Open RReader ;; Use RReader ;; may_fail ;; Close RReader ;; Close RValue ;; may_fail) ;; Ret false.

(** Save, /repo/bloom/bloom_filter.go:137-183. *)
Definition save_call : stmt := Open RFilterLock ;; Defer RFilterLock ;; may_fail ;; Loop (Or Skip (may_fail ;; may_fail ;; may_fail ;; may_fail)) ;; Ret false.
