# Formal model of go-bond/bond in Rocq

This directory holds a Rocq (Coq 8.16.1) model of go-bond/bond and proofs of the
properties in `properties.jsonl`. Only the Coq standard library is used.

## 1. Layout

`rocq/theories/`
* `Model/*.v`   definitions only: one file per Go source area. Each definition cites the
  lines of /repo that it models and what it leaves out.
* `Spec/*.v`    small, independent vocabulary used by theorem statements (abstract tables,
  "is the sorted list of", list-level meaning of queries). It does not use model helpers.
* `Proofs/*.v`  lemmas.
* `Props/*.v`   the property theorems only, each closed by `exact`, with `Print Assumptions`
  and a concrete non-trivial instance (`Example`) that meets the hypotheses.

## 2. How Go is represented

| Go | model |
|---|---|
| byte, []byte | `Byte.byte`, `list byte` (well formed by construction) |
| intN / uintN | `Z` / `N` with explicit wrap-around where the code computes |
| error / panic | result values: `Ok`, `Err e`, `Panic` |
| pebble database | strictly sorted association list of byte strings, atomic batch apply |
| pebble iterator | position state machine over the range visible when it was created |
| pebble batch | list of set / delete / delete-range operations, applied in order; indexed or not |
| context | oracle `nat -> bool`: is the n-th check cancelled |
| `sort.Sort`, `sort.Slice` (unstable) | any function that returns a sorted permutation |
| Go map iteration | any enumeration (list) order; theorems quantify over it |
| user functions (key functions, filters, less, onConflict, callbacks) | arbitrary functions; laws needed are hypotheses of the theorem and shown satisfiable |
| serializer | `T -> option bytes`, `bytes -> T (prior contents of the destination) -> option T` |
| goroutines | small-step machines over explicit atomic steps; theorems quantify over schedules |
| crash | loses everything but the pebble store and the files |

No oracle is an axiom: all of them are section variables or record fields, so that they
appear as universally quantified arguments of the theorems.

## 3. Plan per property

| id | model | method |
|---|---|---|
| C01-C03 | key builder field encoders on Z/N with wrap-around | big-endian order lemma, sign byte case analysis |
| C04 | IndexOrder methods | same; refuted for MinInt and for byte strings, with the exact side condition proved |
| C05, C06 | key builder programs over a schema | induction over the schema; refutation by a two-string collision |
| C07-C10 | KeyEncode, KeyEncodeRaw, KeyDecode, ToDataKeyBytes, split | list algebra over the layout |
| C11 | keySuccessor | lexicographic order lemmas; refuted for a trailing 0xFF |
| C12, C15, C16, C18 | Insert / Update / Upsert / Delete with chunks, sort, iterator probes, filter, batch | loop invariant relating store + batch to an abstract map |
| C13 | same, error paths, commit as single step | every error path returns before the commit |
| C14, C17 | same | refuted by witnesses; proved within a chunk / for distinct keys |
| C19, C20 | histories over the above | induction over the history with the representation invariant |
| C21 | sortKeys, get, reorderValues | permutation argument for any sort |
| C22-C25 | Index.Iter, iterator machines, multi iterator | range lemma for sorted stores; refuted for 0xFF bounds and empty lists |
| C26 | scanForEachSecondaryIndex as a machine with fuel, callbacks as programs | invariant over the prefetch buffer; refuted for callbacks that skip |
| C27-C29 | executeQuery, selectorWithAfter | scan with early stop = list operations; refuted for overflow and reverse paging |
| C30 | Intersect, executeIntersect | set algebra on sorted key lists |
| C31 | all write calls | touched keys carry the table id |
| C32, C33 | batches as op lists | apply is a monoid action |
| C34 | batch callback machine | induction over protocol histories; refuted for Close/Apply |
| C35 | NumberSequence with a clock oracle | invariant; refuted for a clock stepping back |
| C36, C37 | ReIndex, AddIndex with lock state | invariant; refuted for id 255 and lock leak |
| C38, C39 | calls split into read and commit steps | commutation of disjoint batches; refuted on one key |
| C40-C43 | bloom filter, filter initialisation, save/load, shared-memory Add | monotone bit sets; refuted by stale save and by a racing Add |
| C44 | write calls with an abstract filter | simulation between with-filter and without-filter runs |
| C45 | file storer over a file map | refuted, plus what does hold |
| C46, C47 | Dump, Restore, getIndexIDS over a file map | range algebra; refuted for table_1/table_10 and directory names |
| C48 | Open, migration as file-step machine | case analysis over crash points |
| C49 | PreAllocatedPool | ownership invariant |
| C50, C51 | slices with shared backing arrays | heap model; refuted |
| C52 | closeable serializers with a buffer pool | refuted for msgp buffers, proved when buffers are reset |
| C53 | cond | structural induction |
| C54 | mutex machine | invariant over schedules |
| C55 | batched | strong induction |
| C56 | TableAnyScanner | refuted for batches, proved without |
| C57 | Update/Upsert with prior value threading | proved for overwriting deserializers, refuted otherwise |
| C58 | UnsafeInsert, UnsafeUpdate | same effect lemmas as the safe calls |
| C59 | two bloom filters over one store | keys with incomparable prefixes commute; refuted for the default prefix |
| C60 | IsDataKey, IsIndexKey | case analysis over the layout; refuted for an empty index part |
| C61, C62 | Open, Version, user keys | key spaces are disjoint; refuted for table id 0 |
| C64 | execute at a sequence of moments | induction on pages: rows ascend past the After row, which need not exist any more |
| C65 | scans by any selector whose iterators and fetches see different moments | induction on the iterators made one by one and the blocks fetched; refuted: one moment, no error, each row once |
| C66 | ReIndex with any batches committed between its steps | induction over steps, key by key; refuted with concrete concurrent Delete, Update, Insert |
| C67 | Model/Inspect: values as kind, type and data, Go's conversions and DeepEqual, setFields, the filter function, the query that is built; records as lists of fields given by a record of functions | conversions that fit keep the value, the filter function decides `meets`, then the theorems about queries |
| C68 | Model/Inspect, section Remote: each value through JSON, request and rows | values that JSON keeps stay the same number or text, fit the same fields and give the same filter, so the theorems of C67 apply to the request received |
| C69 | each function as a program that opens, closes, defers, may fail and may panic; executions as a relation | a checker of such programs proved sound against all executions by induction, run on every function; leaks by explicit runs and, where every run leaks, by the checker |
| C70 | the calls on a heap of arrays with slices, other goroutines as any function on the memory between steps | simulation with the calls of Model/Table on values, a heap that changes only behind the buffers held, at every moment others may look |
| C71 | memory as in C70; bounds, the iterator's key, multiKeyBuffer and the values as slices of it; callbacks as programs that read slices | simulation: the scan on memory and the scan on values go through the same states, as what it holds is never written by others and its own buffers overlap nowhere; the callbacks by cases |
| C72 | a dependent family of tables over one store, one open batch, all calls of Model/Table, Scan, Query, ReIndex as steps | forward simulation; frame lemma for the other tables (keys start with the table id), the step theorems of C06-C36 for the table itself |
| C73 | Model/LiveFilter: the machine of Model/Concur plus the steps of Initialize | invariant: a stored row is in the filter or still to be added; a row about to be written is in the filter or stored; bits never disappear |
| C74 | Model/DumpSteps: Dump's goroutine and one goroutine per directory as a step machine, the directory after each step | invariant: what the rest of the call makes of the final content of the directories is what the model of C46 makes |
| C75 | Spec/BatchesSpec: named batches, the calls of C72 given to any of them, Batch.Apply and DeleteRange; abstract batches as changes by row | invariant: the operations of a batch make its changes on every database that has the same rows where it changes something, by the locality of the write calls |
| C76 | Model/Remote: the handler with its four routes, JSON trees with encoding and decoding of each request and answer, URL.Path with its escapes, the Accept header, the client | encoding then decoding is the JSON round trip of C68 for values, rows, options and requests; the path of base URL plus route ends in the route and in no other |
| C77 | Model/Cli: the splitting of headers, the choice of the inspector, the four commands with their flags and output, dump and restore with Open before them | headers by induction over the list, output against a relation between answers and JSON; dump and restore from C46 and C61 |
| C78 | Spec/LifeSpec over the model of C72 and Model/Version: sessions with Open, calls, callbacks, Close, crash and migration | induction over the sessions with the invariant that the disk holds the content; each session by the refinement of C72, interrupted AddIndex by its frame, Open by C48 and C61 |
| C79 | Model/LiveInter: Intersect and executeIntersect with a moment per pebble iterator | induction over the entries each part delivers, across the iterators a multi selector makes one by one; the fetch by C21 at its moment |
| C80 | Model/LiveQuery: executeQuery over the live scan of Model/LiveScan | the callback passes over rows before the offset in idle rounds, then loads every row: induction over the rounds, then the list lemmas of C27-C29 |
| C81 | Model/Context: context.go over the values of a context; cancellation is the oracle e_ctx of the existing models | induction over the derivation; induction over every loop with a ctx check against the same loop without; the first check of each loop |
| C82 | Model/Remote: fold_name and jfield model how encoding/json finds fields | each decoder is equivalent to its relation; the four suffixes exclude each other; case analysis over the handlers |
| C83 | Model/Iter: every call with its boolean result, seeks, Error | each call keeps the relation between an iterator and a cursor on the sorted list; seeks by induction on the list; results determined by the spec relation |
| C84 | the scan and query models on stores of which only the row area is known | invariant of the callback state through the iterators, prefetching and intersecting; the primary index by comparing with the table without its indexes |
| C85 | the write calls on a read-write batch | induction over the rows of a chunk for every way it ends, then over chunks and calls |
| C86 | the write calls with an oracle for sorts and map orders | induction over rows and chunks gives the first fault; the order and the fault are unique, so two oracles agree |
| C87 | iterators with an oracle of failing reads, through which scans, Get, the write calls, ReIndex and Dump run | invariant: the unread rest of the selections, of which a failing read skips to the next; simulation of the calls without failures |
| C88 | executeQuery and executeIntersect over the iterators with an oracle of failing reads | the callback of a query gives up on failed loads, so the theorems on scans with failing reads apply; for Intersect an invariant on the keys collected so far |
| C89 | the inductive set of reached databases over the models of tables, batches, ReIndex, Open, filters and backup | an invariant on every stored key, carried through each function that writes |
| C90 | Load and Save over a heap of arrays with Go's append, next to the value model of the filter | simulation of the value model call by call, with a frame for the memory |
| C91 | an inductive set of sequences of tries over the models of the write calls | an invariant with the two states before and done; the database is determined by the rows and the keys outside of the table |
| C92 | the models of the write calls | the database is determined by the rows and the keys outside of the table; the rows after both ways are compared key by key |
| C93 | Close, OnClose, notifyOnClose with functions as programs of writes, OnClose, Close and panics; the range of Compact | induction over the functions and over the depth of calls; byte order |
| C94 | the models of the write calls and GetPoint | Get determines the rows, the rows and the keys outside of the table determine the database |
| C95 | the models of Dump, Restore, AddIndex and the table calls | the key-level theorem of C46, the invariant between rows and keys, and the theorem on AddIndex |
| C96 | the model of queries | every window is cut from the same list, and the pages of a list make up the list |
| C97 | the models of the write calls | both ways have the same effect on the rows, and the rows determine the keys of the table |
| C98 | the model of Execute | both queries sort the same set of rows without repetition, and a total order sorts a set in one way only |
| C99 | the model of Execute | filters commute with the direction, with a total order and with the intersection |
| C100 | the model of Intersect | both queries compute the same sorted list of keys, and the rest of Execute does not look at the parts |
| C63 | calls, batches and crashes over a log of states | invariant: every log entry is the state after the deeds up to it |

A property whose full statement is false of the code is kept as stated; a theorem
`..._refuted` gives the counterexample and a theorem `..._partial` proves the largest
part found that holds, and section 6 records the finding.

## 4. Trusted base

* Coq's kernel (8.16.1).
* `Print Assumptions` of every theorem in `Props/*.v` answers "Closed under the global
  context" (section 7). No axiom is used. The modules loaded for `lia` and friends pull in
  the standard library file `Coq.ssr.ssrunder`, whose seven opaque module-type constants
  (`Under_rel.Under_rel`, `Under_rel.over_rel`, ...) `coqchk` lists as axioms of the loaded
  library; no theorem here depends on them.
* The reading of the Go code recorded in the comments of `Model/*.v`: each definition
  cites the lines it models and says what it leaves out.
* The assumptions about dependencies in section 5.

## 5. Modelled and not modelled

### 5.1 What is modelled

| file | code |
|---|---|
| Model/Bytes, Go, Keys | keys.go completely; the constants of bond.go; key builders, IndexOrder, KeyEncode/KeyEncodeRaw/KeyDecode, KeyBytes, comparer split, user keys, prefixes, successors |
| Model/Pebble | the pebble operations used: Get, Set, Delete, DeleteRange, Apply, NewIter with bounds, SeekGE/First/Next/Prev/Last, indexed and plain batches |
| Model/Index | index.go: NewIndex, OnInsert/OnUpdate/OnDelete, Intersect |
| Model/Table | table.go: Insert, Update, Upsert, Delete, Exist, GetPoint, Get, batched; table_unsafe.go |
| Model/Scan | iter.go, index.go Iter, table.go Scan*, ScanIndexForEach with its prefetch buffer, selectors |
| Model/Query | query.go: Filter, Order, Offset, Limit, After, Reverse, Intersects, executeQuery, executeIntersect, selectorWithAfter |
| Model/Batch, Sequence, Sync | batch.go with its callbacks, helpers.go NumberSequence, sync.go SyncBatch |
| Model/Cond, Pool, Serial, AnyScan | cond/cond.go, utils/sync.go, serializers/msgp*.go buffer handling, table_utils.go |
| Model/Bloom, FSStore, BloomRace | bloom/bloom_filter.go, filter.go, filters/filter_fs_storer.go; Add as separate memory accesses |
| Model/Slices | the places where KeyBuilder, IndexOrder and Query append to shared slices, over a heap of arrays |
| Model/ReIndex | AddIndex, ReIndex with failing writes, the table lock |
| Model/Backup | Dump, Restore, getIndexIDS, iteratorToSST |
| Model/Version | Open, Version, initVersion, the format version file, MigratePebbleFormatVersion as file steps |
| Model/Concur | write calls as state machines on one database |
| Model/LiveScan | table.go:1004-1194 scans while the database changes, without batch, each pebble iterator at a moment of its own |
| Model/Crash | pebble's log with Sync and NoSync commits, crash and reopen |
| Model/LiveReIndex | ReIndex among other writers |
| Model/Inspect | `inspect.inspect` (Tables, Indexes, EntryFields, Query with setFields and the filter function), the JSON hop of `inspect_handler.go`/`inspect_handler_client.go`; reflect's Convert/CanConvert/DeepEqual for bool, integers, float64, string, []byte. structs.Map is a function of the record type (section variables with `reflects`); float to integer out of range is an oracle; nested structs, float32, nil filter values, HTTP itself are not modelled |
| Model/Resource | what each function opens, closes and defers: table.go, table_unsafe.go, index.go, iter.go, bond.go (Open, Dump, getIndexIDS, iteratorToSST, Migrate), version.go, bloom Load/Save; data left out |
| Model/Mem | the buffer handling of table.go and table_unsafe.go (Insert, Update, Upsert, Delete, Exist, Get, keysExternal, sortKeys) and of index.go OnInsert, OnUpdate, OnDelete; keys.go KeyEncodeRaw on slices; memory as arrays, other goroutines in between |
| Model/MemScan, MemQuery, MemInter | table.go ScanIndexForEach, scanForEachPrimaryIndex, scanForEachSecondaryIndex, keySuccessor, index.go Iter, the moves of iter.go's _iteratorMulti, query.go executeQuery and executeIntersect, index.go Intersect with the casts of utils/unsafe.go, filter.go FilterInitialize's callback: their buffers |
| Model/LiveFilter | filter.go:24-75 Initialize as a sequence of steps, interleaved with the calls of Model/Concur |
| Model/DumpSteps | bond.go:378-439 Dump and 525-558 iteratorToSST step by step, Restore of unfinished directories |
| Model/Remote | inspect/inspect_handler.go:10-246, inspect/inspect_handler_client.go:24-177: handler, client, and JSON trees |
| Model/Cli | inspect/inspect_cli.go:72-245, cmd/bond-cli: headers, commands, flags, output, dump and restore |
| Model/LiveInter | index.go:355-403, query.go:282-391 while the database changes, without batch |
| Model/LiveQuery | query.go:155-280 while the database changes, without batch |
| Model/Context | context.go, package context as a list of values |
| Model/Iter | the Iterator interface: results of First, Last, Next, Prev, SeekGE, SeekLT, Error; seeks of several iterators panic |
| Model/SeekPrefix | SeekPrefixGE of one pebble iterator among the other calls: prefix mode, bounds, Prev in it; pebble's part follows its documentation |
| Model/Faults | scans, Get, Exist, Insert, Update, Upsert, ReIndex and Dump (rows only) when NewIter and positioning calls of pebble fail, in any pattern; the other models assume that reads work |
| Model/FaultQuery | Execute, executeQuery, executeIntersect and Intersect when NewIter and positioning calls of pebble fail, in any pattern |
| Model/FilterLife | any sequence of Add, Initialize and Save of one FilterInitializable; what FilterInitialize and the inner Save do is given with the call |
| Model/FilterMem | bloom/bloom_filter.go:42-77, 93-194, 202-212 once more, with the key prefix as a slice of the caller's memory and the appends of buildKey and buildBucketNumKey |
| Model/Closing | Close, OnClose and notifyOnClose of the database with functions that write, register, close or panic; the range of Compact |
| Spec/LifeSpec | bond.go:138-232, 309-322 (Open, Close, OnClose), 584-608: whole lives of a database, process by process |
| Spec/BatchesSpec (run_mop) | bond.go:242-297, batch.go:58-163: any number of batches beside direct calls |

### 5.2 Assumptions about what is outside

* pebble: the database is a map in byte order; a batch is applied at once or not at all
  and in order; an iterator (also of an indexed batch) is a snapshot taken when it is
  created; a plain batch cannot be read (`ErrNotIndexed`); DeleteRange of an empty span
  does nothing; Ingest adds the pairs of the given files at once and refuses overlapping
  files; which versions pebble.Open accepts is an oracle. These points follow pebble's
  documented behaviour; its source is not available here and was not checked.
* sort.Sort and sort.Slice return a sorted permutation, nothing more (they are not
  stable); maps are enumerated in any order; the context may be cancelled at any check.
* append: whether it reallocates is an oracle restricted to "enough room: in place".
* sync.Pool and the channel pool return any item that was put, or a new one. Hash
  functions are arbitrary functions. The file system keeps what was written (no loss on
  missing fsync); a crash may tear the file being written.
* Single words are read and written atomically in Model/BloomRace (sequential
  consistency); in Model/Concur the filter calls of one chunk are not interleaved.
* Serializers are arbitrary functions with the laws stated in the theorem
  (`ser_fresh`: decoding into a fresh value gives the value back; `ser_over`: whatever the
  target held). The theorems exhibit serializers that meet them and ones that do not.
* structs.Map and reflect.New are functions of the record type with the laws `reflects`
  (Spec/InspectSpec.v). JSON numbers become the nearest float64; text that is not UTF-8
  becomes any other text. Go's conversion of a float64 out of the range of the integer type
  is an oracle.

### 5.3 What is not modelled

pebble internals (WAL, compaction, caches, block properties), metrics, memory use,
the transport of HTTP messages (the handler, the client and bond-cli are modelled over
messages as values, C76, C77, C82), the JSON/CBOR/protobuf encodings themselves, benchmarks, and performance. Integer overflow of lengths is
modelled where it can be reached (uint32 length fields, Offset+Limit, sequence numbers)
and otherwise excluded by hypotheses such as `row_ok` (index parts below 2^32 bytes).

## 6. Findings

Each line is a statement a user would expect and that is false of the code; the theorem
with the suffix `_refuted` in the named property gives the proof.

<!-- findings -->

| property | finding |
|---|---|
| C04 | IndexOrder DESC of the smallest int16/int32/int64 sorts it as the largest; byte strings of different lengths are not reversed |
| C05 | two variable-length fields in one key builder can collide (`AddStringField("a")`, ...), since fields carry no length |
| C11, C23, C24 | keySuccessor increments the last byte only if it is not 0xFF; for a prefix ending in 0xFF the upper bound is too large and rows of other index keys are selected |
| C14, C15 | Insert and Update look for repeated primary keys within a chunk of 5000 only; across chunks the second row is accepted and the index entry of the first stays |
| C15 | an Update with a primary key in two chunks can remove the index entry of the row that it stores: each chunk compares with the row stored before the call, so the last chunk does not restore an entry that an earlier chunk deleted; the row is stored and no scan of the index returns it (C15_update_loses_entry_refuted) |
| C17 | an Upsert with a primary key in two chunks merges both versions with the row stored before the call: the first merge is lost and its index entries stay (C17_upsert_leaves_partial) |
| C17 | Upsert of a repeated key reads `trs[i]` with the wrong position: it stores another row of the call, and drops the stored version |
| C18, C19 | Delete computes the index entries to remove from the record given by the caller, not from the stored one; entries of the stored row stay; when the primary key is used again they lead to the new row, so that scans return it outside their range and more than once |
| C21 | Get treats a row encoded as zero bytes as absent |
| C22 | a scan of the primary index starts at the key of the zero record; rows in front of it are never visited (negative integers, for example) |
| C24 | with primary keys of variable length the upper end of a range includes keys that extend it |
| C25 | selectors with no points or ranges panic |
| C26 | a callback that loads a row and then skips rows makes ScanIndexForEach repeat entries without end |
| C27 | Offset+Limit overflows; a limit of 2^63 or more panics |
| C28, C29 | After with Reverse returns the wrong side, so paging with Reverse repeats its first page for ever; After a row in front of the selection widens it; After beyond the last row panics; After with points of the primary index returns rows again, so paging never ends |
| C30 | Intersects ignores the batch, Reverse and nested Intersects, and After without Order ignores Offset and Limit |
| C33 | every scan or query through a write-only batch returns nothing and no error, and Get of points returns nil rows |
| C34 | Batch.Close runs the OnCommitted callbacks instead of the OnClose ones; Apply runs OnCommitted even on error; a veto does not run OnError |
| C35 | NumberSequence repeats numbers when the clock steps back; after an overflow a batch gets the id of another |
| C36 | ReIndex of index id 255 deletes the wrong range (255+1 wraps); AddIndex accepts id 0 and ReIndex of it erases all rows |
| C37 | AddIndex with a duplicate id keeps the table locked and has already added the indexes in front of the duplicate |
| C39 | no lock is held between reading and committing: concurrent Inserts of one key both succeed, concurrent Updates leave stale index entries, concurrent Upserts lose updates |
| C41 | Save after Clear stores no buckets, the next Load fails; a prefix ending in 0xFF is never cleared |
| C42 | rows committed after the last Save are missing from the filter loaded after a crash, so they are reported absent and can be inserted again; a torn count file makes Load panic |
| C43 | concurrent Adds to one bucket lose bits or the changed mark |
| C45 | FilterFSStorer.DeleteRange ignores its end; different keys share a file |
| C46 | Restore of table 1 also restores tables 10..19 and 100..; paths containing `index` or `table_N` confuse Restore; existing rows stay; indexes are discovered outside of the snapshot |
| C48 | a crash while the version file is rewritten leaves an empty file or a third version, which no Open accepts |
| C50 | IndexOrder.OrderBytes with DESC complements the bytes of the caller's record in place |
| C51 | two extensions of one KeyBuilder or Query can share memory and overwrite each other |
| C52 | SerializerWithCloseable appends to a buffer that still holds an earlier value |
| C54 | a function that panics, or uses its own SyncBatch, leaves it locked for ever |
| C56 | TableAnyScanner drops the batch in ScanForEach and ScanIndexForEach |
| C57 | Update and Upsert decode every stored row into the same variable; a serializer that omits fields carries them over to the next row and the wrong index entries are deleted |
| C59 | all bloom filters share one default key prefix; two tables with filters in one store overwrite each other |
| C60 | Key.IsIndexKey is false for entries of an index with an order part only |
| C61 | a data version that is not a number counts as none and is overwritten |
| C62 | table id 0 shares its row area with the data version record; a full scan of it meets that record |
| C64 | with Order, when the last row of a page is deleted before the next page is run, that page starts over from the first row |
| C65 | an index scan reads entries and rows at different moments: a row moved out of the selection meanwhile is returned with its new contents |
| C65 | a row deleted while an index scan runs makes the scan fail with ErrNotFound |
| C65 | a scan by several points or ranges makes its iterators one by one: a row moved from one to the other meanwhile is returned twice or not at all, though it is selected before and after |
| C66 | a Delete that commits while AddIndex/ReIndex runs leaves an entry without a row: scans of the new index fail from then on |
| C66 | an Update that commits while ReIndex runs leaves an entry with the old value: scans return the row for a value it does not have |
| C66 | an Insert that began before AddIndex and commits after ReIndex created its iterator has no entry in the new index |
| C67 | A filter of the inspector converts the value to the type of the field before comparing: `Score = 6.5` shows rows of score 6 and `Kind = 2^32+10` rows of kind 10 (`C67_filter_rounds_refuted`, `C67_filter_wraps_refuted`); /repo/inspect/inspect.go:116-119. |
| C67 | The inspector's index selector is one point with zero in the fields not given: on an index whose next field is descending it shows nothing (`C67_selector_misses_refuted`); /repo/inspect/inspect.go:92-104. |
| C67 | The inspector ignores the selector of the primary index and shows the whole table (`C67_primary_selector_refuted`); /repo/inspect/inspect.go:92. |
| C67 | The inspector's filter never matches, and After and selector panic, on a field of a named type given a value of its kind (`C67_named_types_refuted`); /repo/inspect/inspect.go:116, 219-227. |
| C67 | For tables of structs (not pointers) the inspector panics on secondary indexes and on After (`C67_struct_tables_refuted`), and a null in After panics (`C67_null_refuted`); /repo/inspect/inspect.go:94-101, 147-153, 216-227. |
| C68 | The remote inspector turns integers into float64: asked for the row with id 2^53+1 it shows row 2^53 (`C68_big_integers_refuted`), and paging over a row with id 2^53+1 never ends (`C68_endless_pages_refuted`); /repo/inspect/inspect_handler.go:202, inspect_handler_client.go:171. |
| C68 | Through the remote inspector a []byte field is base64 text and a filter with its bytes finds nothing (`C68_bytes_refuted`); /repo/inspect/inspect_handler_client.go:147. |
| C69 | getIndexIDS (bond.go:501-523) opens an iterator and never closes it: every Dump with indexes leaks one per table, and DB.Close then fails with leaked iterators (C69_dump_indexes_refuted). |
| C69 | BloomFilter.Load (bloom_filter.go:97-105) closes the value with the number of buckets only if the number is wrong: each load that succeeds leaks it (C69_load_refuted). |
| C69 | ReIndex (table.go:265-336) closes its iterator only on success, and AddIndex (table.go:248-263) returns with the table's lock held if the index exists already: every later call that takes it blocks for ever (C69_reindex_refuted). |
| C69 | UnsafeUpdate (table_unsafe.go:20-103) never closes its own batch when it succeeds, and closes the caller's batch when that refuses a row, so that the caller's own Close is the second one (C69_unsafe_update_refuted). |
| C69 | A callback or filter that panics inside a scan leaves the scan's iterator open (C69_panic_refuted). |
| C69 | Open returns an error for a wrong data version without closing the pebble database: the directory stays locked and no later Open in the process can succeed (C69_open_refuted). |
| C71 | The key a callback gets while it scans a secondary index is memory of the iterator (table.go:1167), and lazy.Get moves that iterator to prefetch (table.go:1132-1149): a callback that looks at its key behind Get sees the key of another row, for the first row of every fetch, and the right key for the others (C71_key_after_get_refuted). |
| C71 | The key slices given to callbacks are overwritten by later rows: keys that are kept without copying all show the last one (C71_kept_key_refuted). |
| C73 | a table with a FilterInitializable filter that is being initialised: an Update has found its row, the row is deleted by another call, Initialize scans (without the row) and switches the filter on, the Update commits. Everything succeeded, but the stored row is not found by Get, Exist, Insert or Upsert (Update and the Upsert of existing rows never Add to the filter). |
| C74 | Dump interrupted (process killed) after the directory of a table was made and before its first file, or between two files, or before the directory of an index: Restore from that directory succeeds with no rows, with the first rows only, or with all rows and an empty index. VERSION is written first, and nothing marks a dump as complete. |
| C74 | Dump that fails (a table twice) returns while its goroutines still write into the directory (the error group is not awaited). |
| C75 | Two open batches (or a batch and a direct call) that Update the same row: both commits succeed and an index keeps an entry for a value the row does not have. Two batches can both Insert the same new primary key. Nothing detects the conflict at Commit. |
| C75 | AddIndex with reindexing while a batch is open: rows written in the batch before never get an entry in the new index. |
| C76 | NewInspectRemote with a URL that has a query (…/tables?v=1): the route is appended to the query, so the handler sees only the path of the URL; Indexes of a table that does not exist returns the names of the tables as a success. |
| C76 | NewInspectHandler compares Accept with application/json literally: Accept: */* (what curl and many clients send) or application/json;q=1 gets 406 Not Acceptable. |
| C76 | A table whose name is not valid UTF-8 is listed over HTTP under a replaced name, and neither that nor its own name reaches it. |
| C77 | bond-cli inspect splits headers at every = and refuses a value that contains one: Authorization=Basic dXNlcg== (base64 padding) cannot be given. |
| C77 | bond-cli inspect --url .bond, the first example of its usage, always fails: bond-cli gives NewInspectCLI no function for local databases. |
| C77 | bond-cli prints errors but always exits with status 0, so a script cannot tell that dump or restore failed. |
| C77 | bond-cli dump --tables 257 dumps table 1: ids are cut to a byte without a check. |
| C77 | bond-cli dump of a directory that does not exist creates an empty database there and succeeds with an empty dump. |
| C77 | bond-cli dump and restore open the database with the default format version only: one migrated to another format version cannot be dumped. |
| C78 | an index that one process does not declare is not maintained by it, and nothing records that: the next process that declares it with NewTable gets queries with rows missing, or ErrNotFound from every query that meets an entry of a deleted row (C78_forgotten_index_refuted, C78_forgotten_delete_refuted). |
| C79 | the parts of an Intersects query read the index at different moments and the rows at yet another: with concurrent writes it can return a row that matched the query at no time, and it fails with ErrNotFound when a matched row is deleted before it is fetched (C79_one_moment_refuted, C79_no_failure_refuted). |
| C80 | a query without Order lists the index at one moment and reads the rows at later ones: with concurrent writes its rows need not come in index order and a query with Limit can return a row that was among the first at no moment (C80_index_order_refuted). |
| C80 | rows are fetched in blocks of the prefetch size even if the limit needs fewer, so a concurrently deleted row that the query would not return fails it with ErrNotFound (C80_unneeded_row_refuted). |
| C81 | the context keys are untyped string constants, so a value stored by any other package under "go-bond-batch" makes ContextRetrieveBatch panic, or is taken for the batch (C81_foreign_value_refuted). |
| C81 | Get with a point or points never looks at its context, and a scan by an index looks at it once per prefetched block (C81_get_ignores_refuted, C81_scan_unnoticed_refuted). |
| C63 | A write call without rows returns nil and syncs nothing: what was committed without Sync before it can still be lost (C63_empty_call). |
| C83 | SeekGE, SeekLT and SeekPrefixGE of an iterator over several points or ranges panic with "implement me" (iter.go:157-170), although Iterator offers them for every selector. |
| C83 | Prev behind SeekPrefixGE is an error and ends the iteration; the Iterator interface does not say that the mode of the iterator has changed. |
| C84 | After repeated keys or a Delete with outdated contents, a scan of a secondary index returns rows that do not match its selector, or fails with ErrNotFound for every selector that covers an entry whose row is gone. |
| C84 | If onConflict of Upsert returns a row with another primary key it is stored under the old key: Scan returns it, Get with its own key reports ErrNotFound. |
| C85 | A call that fails with a batch given by its caller is not undone: the rows it did before the failure stay in the batch and are stored by the next Commit. |
| C86 | With a key twice in one chunk of an Update the stored row depends on how sort.Sort leaves ties, and it is not stable; Insert and Upsert order their rows with the same sort. |
| C87 | A scan of several points or ranges drops the error of a selection's iterator (iter.go:92, 105, 121, 138): its rows are missing and no error is returned. |
| C87 | If pebble's NewIter fails, the errIterator is not valid and its Close returns nil, so a scan returns no rows and no error. |
| C87 | Get of points returns nil records without an error when reads fail; Get of a point returns ErrNotFound, Exist false. |
| C87 | Insert takes a failed SeekGE for an absent row: it overwrites a stored row, returns nil and leaves the old row's index entries behind. Upsert does the same without calling onConflict. |
| C87 | ReIndex ignores what iter.Close returns (table.go:333), and Dump never looks at the iterator's error: both succeed with rows left out. |
| C88 | Intersect ignores what Close returns (index.go:370, 387): a failed read makes an intersection smaller without an error, even if every part is one point or range. |
| C89 | DB.Set and Batch.Set take any key, but the comparer (keys.go:345-347) reads bytes 2 to 5 of it as a length: on a key such as "users" Split panics when pebble flushes it with a filter policy (options.go:75-93). |
| C89 | NewBloomFilter takes a key prefix of the caller (bloom_filter.go:42-67): stored in the database under "users_" its keys have a split index beyond their end. |
| C90 | buildKey and buildBucketNumKey append to the caller's prefix slice (bloom_filter.go:202-212): if it has spare capacity, every Load and Save overwrites the bytes behind it. With the prefixes buf[0:2] and buf[2:4] of one buffer, saving the first filter renames the second one, whose next save goes to other keys; the next process loads the old state without an error and denies keys that were added and saved. |
| C91 | An Upsert whose onConflict accumulates (adds to a counter) is not safe to repeat after an unknown outcome: each committed try is merged again (table.go:637-789). Insert repeated after an unknown outcome answers that the key exists even if it was its own earlier try that stored the row. |
| C92 | An Upsert with the same primary key twice in one call leaves index entries that the same rows in two calls do not leave (table.go:637-789). |
| C93 | A function given to DB.OnClose that calls Close makes Close recur until the stack overflows; one that panics keeps the functions behind it from running and leaves the database open (bond.go:309-322). A second Close runs all functions again on the closed database before it panics. |
| C95 | Restore does not tell the filters of open tables about the restored rows: Get and Exist on a table with a filter made before the restore do not find them, and Insert accepts their keys and leaves their old index entries behind (C95_filter_refuted) |
| C95 | Restore over a table that has rows replaces rows without removing their index entries, so the indexes keep entries of rows that are gone (C95_over_rows_refuted) |
| C96 | With Offset and Limit, a Delete between two pages makes the next page skip a row that is there all the time (C96_change_refuted); After without Order does not have this flaw (C64) |
| C99 | Filter called twice on a query keeps only the second condition, though its comment says that it adds filtering (C99_twice_refuted) |


## 7. Theorems and their assumptions

Generated by `tools/design.py` from `Props/*.v`. Every theorem is closed under the global
context.

<!-- theorems -->

| property | status | theorems | file |
|---|---|---|---|
| C01 | proved | `C01_int64_field_order`, `C01_int32_field_order`, `C01_int16_field_order` | Keys.v |
| C02 | proved | `C02_uint64_field_order`, `C02_uint32_field_order`, `C02_uint16_field_order`, `C02_byte_field_order` | Keys.v |
| C03 | proved | `C03_big_int_field_order`, `C03_big_int_field_fits`, `C03_big_int_field_too_big` | Keys.v |
| C04 | partial | `C04_desc_min_int_refuted`, `C04_desc_bytes_refuted`, `C04_desc_int64_partial`, `C04_desc_int32_partial`, `C04_desc_int16_partial`, `C04_desc_uint64`, `C04_desc_uint32`, `C04_desc_uint16`, `C04_desc_byte`, `C04_desc_big_int`, `C04_desc_bytes_partial` | Keys.v |
| C05 | proved | `C05_composite_key_injective`, `C05_composite_key_total`, `C05_two_strings_refuted` | Keys.v |
| C06 | proved | `C06_composite_key_order`, `C06_inner_string_refuted` | Keys.v |
| C07 | proved | `C07_key_roundtrip`, `C07_key_prefix_decode_panics` | Keys.v |
| C08 | proved | `C08_encoders_agree`, `C08_readback`, `C08_key_builder_programs_append` | Keys.v |
| C09 | proved | `C09_key_order`, `C09_keys_distinct`, `C09_user_keys_apart`, `C09_user_keys_distinct` | Keys.v |
| C10 | proved | `C10_split_monotone`, `C10_split_same_prefix` | Keys.v |
| C100 | proved | `C100_any_parts` | Parts.v |
| C11 | partial | `C11_prefix_upper_bound_refuted`, `C11_prefix_upper_bound_partial`, `C11_prefix_upper_bound_complete` | Keys.v |
| C12 | proved | `C12_insert_adds_rows`, `C12_insert_present_fails`, `C12_insert_outcomes` | Table.v |
| C13 | proved | `C13_failed_call_changes_nothing`, `C13_failed_unsafe_call_changes_nothing`, `C13_cancelled_call_fails`, `C13_cancelled_upsert_fails` | Table.v |
| C14 | partial | `C14_insert_leaves_partial`, `C14_repeated_key_accepted_refuted`, `C14_repeated_key_in_chunk_partial`, `C14_repeated_key_in_batch_partial` | Repeat.v, Table.v |
| C15 | partial | `C15_update_leaves_partial`, `C15_update_loses_entry_refuted`, `C15_update_replaces_rows`, `C15_update_repeated_keys`, `C15_update_repeated_keys_in_batch`, `C15_update_missing_fails`, `C15_update_across_chunks_refuted` | Repeat.v, Table.v |
| C16 | proved | `C16_upsert_merges_rows` | Table.v |
| C17 | partial | `C17_upsert_leaves_partial`, `C17_upsert_stores_other_row_refuted`, `C17_upsert_stale_entry_refuted`, `C17_upsert_folds_partial`, `C17_what_is_stored_partial`, `C17_key_kept_partial` | Repeat.v, Table.v |
| C18 | partial | `C18_stale_entry_breaks_scans_refuted`, `C18_reused_key_wrong_scan_refuted`, `C18_delete_removes_rows_partial`, `C18_delete_stale_entry_refuted`, `C18_delete_any_record_partial` | Scan.v, Table.v |
| C19 | partial | `C19_rows_any_history_partial`, `C19_histories_stay_consistent_partial`, `C19_any_deletes_partial`, `C19_stale_delete_refuted` | AnyHist.v, Table.v |
| C20 | proved | `C20_reads_any_history`, `C20_reads_return_latest_write` | AnyHist.v, Table.v |
| C21 | partial | `C21_points_are_positional_partial`, `C21_empty_encoding_refuted` | Table.v |
| C22 | partial | `C22_scan_rows_partial`, `C22_scan_all_rows_partial`, `C22_primary_point`, `C22_scan_omits_rows_refuted` | Scan.v |
| C23 | partial | `C23_point_rows_partial`, `C23_scans_never_miss`, `C23_point_too_much_refuted` | Scan.v |
| C24 | partial | `C24_range_rows_partial`, `C24_get_range_partial`, `C24_range_too_much_refuted`, `C24_range_extends_refuted` | Scan.v |
| C25 | partial | `C25_multi_rows_partial`, `C25_get_ranges_partial`, `C25_walk`, `C25_empty_selector_refuted`, `C25_every_selector`, `C25_exact_selectors`, `C25_get_every_range`, `C25_walk_every_selector` | Scan.v, ScanAll.v |
| C26 | partial | `C26_scan_primary`, `C26_scan_secondary_partial`, `C26_at_most_once_partial`, `C26_pass_over_never_ends`, `C26_skipping_diverges_refuted`, `C26_double_get_panics_refuted`, `C26_double_get_shifts_refuted`, `C26_primary_every_selector`, `C26_secondary_every_selector_partial` | Scan.v, ScanAll.v |
| C27 | partial | `C27_query_rows_partial`, `C27_overflow_loses_rows_refuted`, `C27_huge_limit_panics_refuted`, `C27_builder_chain`, `C27_every_selector_partial` | Query.v, ScanAll.v |
| C28 | partial | `C28_after_every_row`, `C28_after_reverse_exact`, `C28_order_partial`, `C28_after_partial`, `C28_after_reverse_refuted`, `C28_after_in_front_refuted`, `C28_after_behind_panics_refuted`, `C28_order_every_selector_partial` | After.v, Query.v, ScanAll.v |
| C29 | partial | `C29_reverse_never_ends`, `C29_paging_partial`, `C29_paging_ordered_partial`, `C29_single_selections_ascend`, `C29_points_never_end_refuted` | After.v, Query.v |
| C30 | partial | `C30_intersects_partial`, `C30_refuses_parts`, `C30_reverse_ignored_refuted`, `C30_after_drops_offset_refuted`, `C30_batch_rows_lost_refuted`, `C30_nested_ignored_refuted`, `C30_every_selector_partial` | Query.v, ScanAll.v |
| C31 | proved | `C31_calls_change_only_their_table`, `C31_unsafe_calls_change_only_their_table`, `C31_calls_read_only_their_table`, `C31_other_tables_are_outside`, `C31_reads_depend_on_the_row_only` | Table.v |
| C32 | proved | `C32_batch_reads_its_writes`, `C32_batch_equals_direct` | Table.v |
| C33 | partial | `C33_write_only_silent_refuted`, `C33_read_write_batch_partial`, `C33_nil_batch_panics`, `C33_foreign_selector_silent_refuted`, `C33_write_only_exact` | Scan.v, WriteOnly.v |
| C34 | partial | `C34_commit_partial`, `C34_empty_commit`, `C34_apply_partial`, `C34_reset`, `C34_contents`, `C34_database_is_commits`, `C34_protocol_partial`, `C34_committed_after_write_partial`, `C34_close_partial`, `C34_commit_again`, `C34_every_event`, `C34_on_close_never_runs_refuted`, `C34_close_runs_committed_refuted`, `C34_apply_runs_committed_refuted`, `C34_veto_skips_on_error_refuted` | Batch.v |
| C35 | partial | `C35_exact_partial`, `C35_increasing_partial`, `C35_parts_partial`, `C35_overflow_partial`, `C35_clock_back_refuted`, `C35_batch_ids_repeat_refuted`, `C35_batch_ids_exact_partial`, `C35_batch_ids_partial`, `C35_ids_assigned`, `C35_live_ids_partial`, `C35_reset_id_partial` | Batch.v |
| C36 | partial | `C36_reindex_exact_partial`, `C36_rows_untouched`, `C36_reindex_again_partial`, `C36_add_index_consistent_partial`, `C36_index_255_refuted`, `C36_index_zero_erases_refuted` | ReIndex.v |
| C37 | partial | `C37_add_index_partial`, `C37_duplicate_or_not`, `C37_duplicate_blocks_refuted` | ReIndex.v |
| C38 | proved | `C38_any_schedule`, `C38_returns` | Concur.v |
| C39 | partial | `C39_inserts_refuted`, `C39_updates_refuted`, `C39_upserts_refuted`, `C39_rows_partial`, `C39_rows_upsert_partial` | Concur.v |
| C40 | proved | `C40_no_false_negatives`, `C40_new_reports_nothing` | Filter.v |
| C41 | partial | `C41_saved_and_loaded`, `C41_promises_kept`, `C41_save_loads_partial`, `C41_load_checks`, `C41_stores`, `C41_changed_count_refuted`, `C41_clear_then_save_refuted` | Filter.v |
| C42 | partial | `C42_stale_filter_refuted`, `C42_rescan_omits_refuted`, `C42_torn_count_refuted`, `C42_initialized_filter_partial` | Filter.v |
| C43 | partial | `C43_lost_bit_refuted`, `C43_lost_mark_refuted`, `C43_separate_buckets_partial` | Filter.v |
| C44 | proved | `C44_bloom_filter`, `C44_uninitialized`, `C44_initializable_lives`, `C44_filter_invisible_to_writes`, `C44_filter_invisible_to_reads` | Filter.v, FilterLife.v, Table.v |
| C45 | partial | `C45_which_keys_partial`, `C45_end_ignored_refuted`, `C45_keys_collide_refuted`, `C45_delete_fails_refuted`, `C45_files_partial` | FSNames.v, Filter.v |
| C46 | partial | `C46_roundtrip_partial`, `C46_fresh_target_partial`, `C46_missing_table`, `C46_table_twice`, `C46_other_table_refuted`, `C46_index_in_path_refuted`, `C46_table_in_path_refuted`, `C46_stale_rows_refuted`, `C46_index_lost_refuted` | Backup.v |
| C47 | proved | `C47_index_ids` | Backup.v |
| C48 | partial | `C48_open_accepts`, `C48_record_kept`, `C48_first_open_records`, `C48_record_unique`, `C48_version_reported`, `C48_migrated`, `C48_not_migrated`, `C48_migration_crash_partial`, `C48_migration_crash_refuted`, `C48_first_open_crash_refuted`, `C48_migration_third_version_refuted` | Version.v |
| C49 | proved | `C49_one_owner`, `C49_get_is_free`, `C49_iterator_buffers`, `C49_size`, `C49_close_again`, `C49_double_put_shares` | Util.v |
| C50 | partial | `C50_order_bytes_desc_refuted`, `C50_order_bytes_desc`, `C50_record_kept_partial`, `C50_same_key_partial` | Slices.v |
| C51 | partial | `C51_builder_shared_refuted`, `C51_full_builder_partial`, `C51_query_shared_refuted`, `C51_query_chain_partial`, `C51_full_query_partial` | Slices.v |
| C52 | partial | `C52_reused_buffer_refuted`, `C52_leftovers_partial`, `C52_unreleased_partial`, `C52_no_pool_partial` | Util.v |
| C53 | proved | `C53_eval`, `C53_total`, `C53_and`, `C53_or`, `C53_de_morgan`, `C53_nil_reached`, `C53_nil_skipped`, `C53_eval_any` | Util.v |
| C54 | partial | `C54_mutual_exclusion`, `C54_whole_blocks`, `C54_all_return_partial`, `C54_blocked_forever_refuted` | Util.v |
| C55 | proved | `C55_chunks` | Table.v |
| C56 | partial | `C56_scan_rows_partial`, `C56_scan_index_rows_partial`, `C56_for_each_secondary_partial`, `C56_for_each_primary_partial`, `C56_for_each_same`, `C56_collect_same`, `C56_for_each_drops_batch_refuted`, `C56_error_loses_rows_refuted`, `C56_any_selector_panics_refuted` | AnyScan.v |
| C57 | partial | `C57_update_rows_independent_partial`, `C57_upsert_rows_independent_partial`, `C57_update_depends_on_other_rows_refuted`, `C57_upsert_depends_on_other_rows_refuted` | Table.v |
| C58 | proved | `C58_unsafe_insert_adds_rows`, `C58_unsafe_update_replaces_rows` | Table.v |
| C59 | partial | `C59_default_prefix_refuted`, `C59_separate_prefixes_partial`, `C59_tables_untouched` | Filter.v |
| C60 | partial | `C60_key_bytes_class`, `C60_row_class`, `C60_entry_class_partial`, `C60_order_only_index_refuted` | Keys.v |
| C61 | partial | `C61_open_marks`, `C61_pairs_kept`, `C61_unreadable_version_refuted` | Version.v |
| C62 | partial | `C62_open_keeps_tables_partial`, `C62_user_keys_partial`, `C62_table_zero_refuted` | Version.v |
| C63 | proved | `C63_crashes`, `C63_left`, `C63_safe`, `C63_empty_call` | Crash.v |
| C64 | partial | `C64_live_paging_partial`, `C64_live_paging_ends`, `C64_ordered_paging_refuted` | Paging.v |
| C65 | partial | `C65_live_scan`, `C65_untouched_rows`, `C65_still`, `C65_one_moment_refuted`, `C65_deleted_row_fails_refuted`, `C65_once_refuted` | LiveScan.v |
| C66 | partial | `C66_among_writers_partial`, `C66_new_rows`, `C66_insert_batch`, `C66_alone`, `C66_delete_refuted`, `C66_update_refuted`, `C66_old_insert_refuted` | LiveReIndex.v |
| C67 | partial | `C67_inspect_rows_partial`, `C67_inspect_paging_partial`, `C67_names`, `C67_no_table`, `C67_lists`, `C67_filter_exact`, `C67_any_filter_partial`, `C67_filter_rounds_refuted`, `C67_filter_wraps_refuted`, `C67_selector_misses_refuted`, `C67_primary_selector_refuted`, `C67_named_types_refuted`, `C67_struct_tables_refuted`, `C67_null_refuted` | Inspect.v |
| C68 | partial | `C68_remote_rows_partial`, `C68_remote_paging_partial`, `C68_integers_rounded`, `C68_bytes_base64`, `C68_big_integers_refuted`, `C68_endless_pages_refuted`, `C68_bytes_refuted` | Inspect.v |
| C69 | partial | `C69_writes`, `C69_calls`, `C69_scans_partial`, `C69_panic_refuted`, `C69_dump_partial`, `C69_dump_indexes_refuted`, `C69_load_partial`, `C69_load_refuted`, `C69_reindex_partial`, `C69_reindex_refuted`, `C69_unsafe_update_refuted`, `C69_open_refuted` | Resource.v |
| C70 | proved | `C70_insert`, `C70_update`, `C70_upsert`, `C70_delete`, `C70_unsafe_insert`, `C70_unsafe_update`, `C70_exist`, `C70_get_point`, `C70_get_points`, `C70_builder_functions` | Mem.v |
| C71 | partial | `C71_primary_scan`, `C71_scan_partial`, `C71_scan_index`, `C71_filter_scan`, `C71_query`, `C71_intersect`, `C71_key_after_get_refuted`, `C71_kept_key_refuted` | MemScan.v |
| C72 | proved | `C72_new_database`, `C72_any_database` | System.v |
| C73 | partial | `C73_background_partial`, `C73_ends`, `C73_same_row_refuted` | LiveFilter.v |
| C74 | partial | `C74_any_schedule`, `C74_dump_ends`, `C74_interrupted_partial`, `C74_refused_exactly_partial`, `C74_files_stay`, `C74_existing_refused`, `C74_nothing_restored_refuted`, `C74_half_restored_refuted`, `C74_index_missing_refuted`, `C74_still_writing_refuted` | DumpSteps.v |
| C75 | partial | `C75_batches_partial`, `C75_two_batches_refuted`, `C75_beside_batch_refuted`, `C75_twice_inserted_refuted`, `C75_index_beside_batch_refuted` | Batches.v |
| C76 | partial | `C76_remote_partial`, `C76_any_response`, `C76_query_in_url_refuted`, `C76_accept_all_refuted`, `C76_odd_names_refuted` | Remote.v |
| C77 | partial | `C77_inspect_partial`, `C77_backup_partial`, `C77_equals_refuted`, `C77_local_refuted`, `C77_status_refuted`, `C77_table_id_refuted`, `C77_no_database_refuted`, `C77_other_format_refuted` | Cli.v |
| C78 | partial | `C78_life_partial`, `C78_life_from_partial`, `C78_opens_partial`, `C78_forgotten_index_refuted`, `C78_forgotten_delete_refuted`, `C78_early_death_refuted` | Life.v |
| C79 | partial | `C79_live_intersection`, `C79_untouched_rows`, `C79_still`, `C79_one_moment_refuted`, `C79_no_failure_refuted` | LiveInter.v |
| C80 | partial | `C80_live_query`, `C80_live_after`, `C80_untouched_rows`, `C80_still`, `C80_index_order_refuted`, `C80_unneeded_row_refuted` | LiveQuery.v |
| C81 | partial | `C81_context_values`, `C81_foreign_value_refuted`, `C81_write_error_or_same`, `C81_unsafe_error_or_same`, `C81_scan_error_or_same`, `C81_query_error_or_same`, `C81_cancelled_write`, `C81_cancelled_unsafe`, `C81_cancelled_scan`, `C81_cancelled_query`, `C81_cancelled_intersect`, `C81_get_ignores_refuted`, `C81_scan_unnoticed_refuted` | Context.v |
| C82 | partial | `C82_handler_partial` | Wire.v |
| C83 | partial | `C83_iterator_partial`, `C83_db_iterator`, `C83_multi_seek_refuted`, `C83_write_only`, `C83_unknown_selector`, `C83_seek_prefix`, `C83_prefix_never_panics`, `C83_prefix_outside_refuted`, `C83_after_prefix_seek`, `C83_prefix_prev_refuted`, `C83_prefix_failed` | Iter.v, SeekPrefix.v |
| C84 | partial | `C84_callbacks_see_rows`, `C84_scans_return_rows`, `C84_queries_return_rows`, `C84_queries_after_any_history`, `C84_index_mismatch_refuted`, `C84_primary_scan_partial`, `C84_primary_range_partial`, `C84_primary_multi_partial`, `C84_primary_callbacks_partial`, `C84_points_partial`, `C84_primary_query_partial`, `C84_primary_order_partial`, `C84_rows_after_any_history`, `C84_scan_after_any_history_partial`, `C84_moved_row_refuted` | SoundReads.v |
| C85 | partial | `C85_call_does_a_part_partial`, `C85_batch_stays_consistent_partial`, `C85_commit_after_failures_partial`, `C85_failed_call_leaves_nothing_refuted` | BatchPart.v |
| C86 | partial | `C86_error_of_the_first_fault_partial`, `C86_one_order`, `C86_one_error`, `C86_same_answer_partial`, `C86_same_answer_in_batch_partial`, `C86_repeated_keys_refuted` | Answers.v |
| C87 | partial | `C87_one_selection_partial`, `C87_rows_of_one_selection_partial`, `C87_several_selections_partial`, `C87_several_selections_refuted`, `C87_unmade_iterator_refuted`, `C87_get_of_points_refuted`, `C87_get_refuted`, `C87_update`, `C87_insert_of_new_rows_partial`, `C87_upsert_of_new_rows_partial`, `C87_insert_refuted`, `C87_upsert_refuted`, `C87_reindex_partial`, `C87_reindex_refuted`, `C87_dump_refuted`, `C87_no_failing_reads` | Faults.v |
| C88 | partial | `C88_one_selection_partial`, `C88_several_selections_partial`, `C88_several_selections_refuted`, `C88_intersects_partial`, `C88_intersects_refuted`, `C88_unmade_iterator_refuted`, `C88_no_failing_reads` | FaultQueries.v |
| C89 | partial | `C89_stored_keys_partial`, `C89_touched_keys`, `C89_contract`, `C89_unsplittable`, `C89_raw_key_refuted`, `C89_filter_prefix_refuted` | Split.v |
| C90 | partial | `C90_filters_partial`, `C90_one_filter`, `C90_full_prefix`, `C90_spare_refuted`, `C90_shared_prefix_refuted` | FilterMem.v |
| C91 | partial | `C91_tries_partial`, `C91_last_try_partial`, `C91_among_others_partial`, `C91_merge_refuted` | Retry.v |
| C92 | partial | `C92_permuted_partial`, `C92_parts_partial`, `C92_either_order_partial`, `C92_as_alone_partial`, `C92_any_order_partial`, `C92_repeated_refuted` | Laws.v |
| C93 | partial | `C93_close_partial`, `C93_twice`, `C93_closing_function_refuted`, `C93_panic_refuted`, `C93_compact_partial`, `C93_compact_refuted` | Closing.v |
| C94 | partial | `C94_no_history_partial`, `C94_insert_undone`, `C94_delete_undone`, `C94_update_undone`, `C94_nothing_new`, `C94_index_later_partial`, `C94_stale_refuted` | Trace.v |
| C95 | partial | `C95_moved_partial`, `C95_moved_bare_partial`, `C95_filter_refuted`, `C95_over_rows_refuted` | Moved.v |
| C96 | partial | `C96_offset_pages_partial`, `C96_intersects_pages_partial`, `C96_change_refuted` | Offset.v |
| C97 | proved | `C97_upsert_inserts`, `C97_upsert_updates`, `C97_update_in_two` | Stand.v |
| C98 | partial | `C98_any_index_partial`, `C98_intersects_partial`, `C98_ties_refuted` | Choice.v |
| C99 | partial | `C99_filter_partial`, `C99_filter_order_partial`, `C99_filter_intersects_partial`, `C99_filter_intersects_order_partial`, `C99_limit_refuted`, `C99_twice_refuted` | Push.v |
