C04 | IndexOrder DESC of the smallest int16/int32/int64 sorts it as the largest; byte strings of different lengths are not reversed
C05 | two variable-length fields in one key builder can collide (`AddStringField("a")`, ...), since fields carry no length
C11, C23, C24 | keySuccessor increments the last byte only if it is not 0xFF; for a prefix ending in 0xFF the upper bound is too large and rows of other index keys are selected
C14, C15 | Insert and Update look for repeated primary keys within a chunk of 5000 only; across chunks the second row is accepted and the index entry of the first stays
C15 | an Update with a primary key in two chunks can remove the index entry of the row that it stores: each chunk compares with the row stored before the call, so the last chunk does not restore an entry that an earlier chunk deleted; the row is stored and no scan of the index returns it (C15_update_loses_entry_refuted)
C17 | an Upsert with a primary key in two chunks merges both versions with the row stored before the call: the first merge is lost and its index entries stay (C17_upsert_leaves_partial)
C17 | Upsert of a repeated key reads `trs[i]` with the wrong position: it stores another row of the call, and drops the stored version
C18, C19 | Delete computes the index entries to remove from the record given by the caller, not from the stored one; entries of the stored row stay; when the primary key is used again they lead to the new row, so that scans return it outside their range and more than once
C21 | Get treats a row encoded as zero bytes as absent
C22 | a scan of the primary index starts at the key of the zero record; rows in front of it are never visited (negative integers, for example)
C24 | with primary keys of variable length the upper end of a range includes keys that extend it
C25 | selectors with no points or ranges panic
C26 | a callback that loads a row and then skips rows makes ScanIndexForEach repeat entries without end
C27 | Offset+Limit overflows; a limit of 2^63 or more panics
C28, C29 | After with Reverse returns the wrong side, so paging with Reverse repeats its first page for ever; After a row in front of the selection widens it; After beyond the last row panics; After with points of the primary index returns rows again, so paging never ends
C30 | Intersects ignores the batch, Reverse and nested Intersects, and After without Order ignores Offset and Limit
C33 | every scan or query through a write-only batch returns nothing and no error, and Get of points returns nil rows
C34 | Batch.Close runs the OnCommitted callbacks instead of the OnClose ones; Apply runs OnCommitted even on error; a veto does not run OnError
C35 | NumberSequence repeats numbers when the clock steps back; after an overflow a batch gets the id of another
C36 | ReIndex of index id 255 deletes the wrong range (255+1 wraps); AddIndex accepts id 0 and ReIndex of it erases all rows
C37 | AddIndex with a duplicate id keeps the table locked and has already added the indexes in front of the duplicate
C39 | no lock is held between reading and committing: concurrent Inserts of one key both succeed, concurrent Updates leave stale index entries, concurrent Upserts lose updates
C41 | Save after Clear stores no buckets, the next Load fails; a prefix ending in 0xFF is never cleared
C42 | rows committed after the last Save are missing from the filter loaded after a crash, so they are reported absent and can be inserted again; a torn count file makes Load panic
C43 | concurrent Adds to one bucket lose bits or the changed mark
C45 | FilterFSStorer.DeleteRange ignores its end; different keys share a file
C46 | Restore of table 1 also restores tables 10..19 and 100..; paths containing `index` or `table_N` confuse Restore; existing rows stay; indexes are discovered outside of the snapshot
C48 | a crash while the version file is rewritten leaves an empty file or a third version, which no Open accepts
C50 | IndexOrder.OrderBytes with DESC complements the bytes of the caller's record in place
C51 | two extensions of one KeyBuilder or Query can share memory and overwrite each other
C52 | SerializerWithCloseable appends to a buffer that still holds an earlier value
C54 | a function that panics, or uses its own SyncBatch, leaves it locked for ever
C56 | TableAnyScanner drops the batch in ScanForEach and ScanIndexForEach
C57 | Update and Upsert decode every stored row into the same variable; a serializer that omits fields carries them over to the next row and the wrong index entries are deleted
C59 | all bloom filters share one default key prefix; two tables with filters in one store overwrite each other
C60 | Key.IsIndexKey is false for entries of an index with an order part only
C61 | a data version that is not a number counts as none and is overwritten
C62 | table id 0 shares its row area with the data version record; a full scan of it meets that record
C64 | with Order, when the last row of a page is deleted before the next page is run, that page starts over from the first row
C65 | an index scan reads entries and rows at different moments: a row moved out of the selection meanwhile is returned with its new contents
C65 | a row deleted while an index scan runs makes the scan fail with ErrNotFound
C65 | a scan by several points or ranges makes its iterators one by one: a row moved from one to the other meanwhile is returned twice or not at all, though it is selected before and after
C66 | a Delete that commits while AddIndex/ReIndex runs leaves an entry without a row: scans of the new index fail from then on
C66 | an Update that commits while ReIndex runs leaves an entry with the old value: scans return the row for a value it does not have
C66 | an Insert that began before AddIndex and commits after ReIndex created its iterator has no entry in the new index
C67 | A filter of the inspector converts the value to the type of the field before comparing: `Score = 6.5` shows rows of score 6 and `Kind = 2^32+10` rows of kind 10 (`C67_filter_rounds_refuted`, `C67_filter_wraps_refuted`); /repo/inspect/inspect.go:116-119.
C67 | The inspector's index selector is one point with zero in the fields not given: on an index whose next field is descending it shows nothing (`C67_selector_misses_refuted`); /repo/inspect/inspect.go:92-104.
C67 | The inspector ignores the selector of the primary index and shows the whole table (`C67_primary_selector_refuted`); /repo/inspect/inspect.go:92.
C67 | The inspector's filter never matches, and After and selector panic, on a field of a named type given a value of its kind (`C67_named_types_refuted`); /repo/inspect/inspect.go:116, 219-227.
C67 | For tables of structs (not pointers) the inspector panics on secondary indexes and on After (`C67_struct_tables_refuted`), and a null in After panics (`C67_null_refuted`); /repo/inspect/inspect.go:94-101, 147-153, 216-227.
C68 | The remote inspector turns integers into float64: asked for the row with id 2^53+1 it shows row 2^53 (`C68_big_integers_refuted`), and paging over a row with id 2^53+1 never ends (`C68_endless_pages_refuted`); /repo/inspect/inspect_handler.go:202, inspect_handler_client.go:171.
C68 | Through the remote inspector a []byte field is base64 text and a filter with its bytes finds nothing (`C68_bytes_refuted`); /repo/inspect/inspect_handler_client.go:147.
C69 | getIndexIDS (bond.go:501-523) opens an iterator and never closes it: every Dump with indexes leaks one per table, and DB.Close then fails with leaked iterators (C69_dump_indexes_refuted).
C69 | BloomFilter.Load (bloom_filter.go:97-105) closes the value with the number of buckets only if the number is wrong: each load that succeeds leaks it (C69_load_refuted).
C69 | ReIndex (table.go:265-336) closes its iterator only on success, and AddIndex (table.go:248-263) returns with the table's lock held if the index exists already: every later call that takes it blocks for ever (C69_reindex_refuted).
C69 | UnsafeUpdate (table_unsafe.go:20-103) never closes its own batch when it succeeds, and closes the caller's batch when that refuses a row, so that the caller's own Close is the second one (C69_unsafe_update_refuted).
C69 | A callback or filter that panics inside a scan leaves the scan's iterator open (C69_panic_refuted).
C69 | Open returns an error for a wrong data version without closing the pebble database: the directory stays locked and no later Open in the process can succeed (C69_open_refuted).
C71 | The key a callback gets while it scans a secondary index is memory of the iterator (table.go:1167), and lazy.Get moves that iterator to prefetch (table.go:1132-1149): a callback that looks at its key behind Get sees the key of another row, for the first row of every fetch, and the right key for the others (C71_key_after_get_refuted).
C71 | The key slices given to callbacks are overwritten by later rows: keys that are kept without copying all show the last one (C71_kept_key_refuted).
C73 | a table with a FilterInitializable filter that is being initialised: an Update has found its row, the row is deleted by another call, Initialize scans (without the row) and switches the filter on, the Update commits. Everything succeeded, but the stored row is not found by Get, Exist, Insert or Upsert (Update and the Upsert of existing rows never Add to the filter).
C74 | Dump interrupted (process killed) after the directory of a table was made and before its first file, or between two files, or before the directory of an index: Restore from that directory succeeds with no rows, with the first rows only, or with all rows and an empty index. VERSION is written first, and nothing marks a dump as complete.
C74 | Dump that fails (a table twice) returns while its goroutines still write into the directory (the error group is not awaited).
C75 | Two open batches (or a batch and a direct call) that Update the same row: both commits succeed and an index keeps an entry for a value the row does not have. Two batches can both Insert the same new primary key. Nothing detects the conflict at Commit.
C75 | AddIndex with reindexing while a batch is open: rows written in the batch before never get an entry in the new index.
C76 | NewInspectRemote with a URL that has a query (…/tables?v=1): the route is appended to the query, so the handler sees only the path of the URL; Indexes of a table that does not exist returns the names of the tables as a success.
C76 | NewInspectHandler compares Accept with application/json literally: Accept: */* (what curl and many clients send) or application/json;q=1 gets 406 Not Acceptable.
C76 | A table whose name is not valid UTF-8 is listed over HTTP under a replaced name, and neither that nor its own name reaches it.
C77 | bond-cli inspect splits headers at every = and refuses a value that contains one: Authorization=Basic dXNlcg== (base64 padding) cannot be given.
C77 | bond-cli inspect --url .bond, the first example of its usage, always fails: bond-cli gives NewInspectCLI no function for local databases.
C77 | bond-cli prints errors but always exits with status 0, so a script cannot tell that dump or restore failed.
C77 | bond-cli dump --tables 257 dumps table 1: ids are cut to a byte without a check.
C77 | bond-cli dump of a directory that does not exist creates an empty database there and succeeds with an empty dump.
C77 | bond-cli dump and restore open the database with the default format version only: one migrated to another format version cannot be dumped.
C78 | an index that one process does not declare is not maintained by it, and nothing records that: the next process that declares it with NewTable gets queries with rows missing, or ErrNotFound from every query that meets an entry of a deleted row (C78_forgotten_index_refuted, C78_forgotten_delete_refuted).
C79 | the parts of an Intersects query read the index at different moments and the rows at yet another: with concurrent writes it can return a row that matched the query at no time, and it fails with ErrNotFound when a matched row is deleted before it is fetched (C79_one_moment_refuted, C79_no_failure_refuted).
C80 | a query without Order lists the index at one moment and reads the rows at later ones: with concurrent writes its rows need not come in index order and a query with Limit can return a row that was among the first at no moment (C80_index_order_refuted).
C80 | rows are fetched in blocks of the prefetch size even if the limit needs fewer, so a concurrently deleted row that the query would not return fails it with ErrNotFound (C80_unneeded_row_refuted).
C81 | the context keys are untyped string constants, so a value stored by any other package under "go-bond-batch" makes ContextRetrieveBatch panic, or is taken for the batch (C81_foreign_value_refuted).
C81 | Get with a point or points never looks at its context, and a scan by an index looks at it once per prefetched block (C81_get_ignores_refuted, C81_scan_unnoticed_refuted).
C63 | A write call without rows returns nil and syncs nothing: what was committed without Sync before it can still be lost (C63_empty_call).
C83 | SeekGE, SeekLT and SeekPrefixGE of an iterator over several points or ranges panic with "implement me" (iter.go:157-170), although Iterator offers them for every selector.
C83 | Prev behind SeekPrefixGE is an error and ends the iteration; the Iterator interface does not say that the mode of the iterator has changed.
C84 | After repeated keys or a Delete with outdated contents, a scan of a secondary index returns rows that do not match its selector, or fails with ErrNotFound for every selector that covers an entry whose row is gone.
C84 | If onConflict of Upsert returns a row with another primary key it is stored under the old key: Scan returns it, Get with its own key reports ErrNotFound.
C85 | A call that fails with a batch given by its caller is not undone: the rows it did before the failure stay in the batch and are stored by the next Commit.
C86 | With a key twice in one chunk of an Update the stored row depends on how sort.Sort leaves ties, and it is not stable; Insert and Upsert order their rows with the same sort.
C87 | A scan of several points or ranges drops the error of a selection's iterator (iter.go:92, 105, 121, 138): its rows are missing and no error is returned.
C87 | If pebble's NewIter fails, the errIterator is not valid and its Close returns nil, so a scan returns no rows and no error.
C87 | Get of points returns nil records without an error when reads fail; Get of a point returns ErrNotFound, Exist false.
C87 | Insert takes a failed SeekGE for an absent row: it overwrites a stored row, returns nil and leaves the old row's index entries behind. Upsert does the same without calling onConflict.
C87 | ReIndex ignores what iter.Close returns (table.go:333), and Dump never looks at the iterator's error: both succeed with rows left out.
C88 | Intersect ignores what Close returns (index.go:370, 387): a failed read makes an intersection smaller without an error, even if every part is one point or range.
C89 | DB.Set and Batch.Set take any key, but the comparer (keys.go:345-347) reads bytes 2 to 5 of it as a length: on a key such as "users" Split panics when pebble flushes it with a filter policy (options.go:75-93).
C89 | NewBloomFilter takes a key prefix of the caller (bloom_filter.go:42-67): stored in the database under "users_" its keys have a split index beyond their end.
C90 | buildKey and buildBucketNumKey append to the caller's prefix slice (bloom_filter.go:202-212): if it has spare capacity, every Load and Save overwrites the bytes behind it. With the prefixes buf[0:2] and buf[2:4] of one buffer, saving the first filter renames the second one, whose next save goes to other keys; the next process loads the old state without an error and denies keys that were added and saved.
C91 | An Upsert whose onConflict accumulates (adds to a counter) is not safe to repeat after an unknown outcome: each committed try is merged again (table.go:637-789). Insert repeated after an unknown outcome answers that the key exists even if it was its own earlier try that stored the row.
C92 | An Upsert with the same primary key twice in one call leaves index entries that the same rows in two calls do not leave (table.go:637-789).
C93 | A function given to DB.OnClose that calls Close makes Close recur until the stack overflows; one that panics keeps the functions behind it from running and leaves the database open (bond.go:309-322). A second Close runs all functions again on the closed database before it panics.
C95 | Restore does not tell the filters of open tables about the restored rows: Get and Exist on a table with a filter made before the restore do not find them, and Insert accepts their keys and leaves their old index entries behind (C95_filter_refuted)
C95 | Restore over a table that has rows replaces rows without removing their index entries, so the indexes keep entries of rows that are gone (C95_over_rows_refuted)
C96 | With Offset and Limit, a Delete between two pages makes the next page skip a row that is there all the time (C96_change_refuted); After without Order does not have this flaw (C64)
C99 | Filter called twice on a query keeps only the second condition, though its comment says that it adds filtering (C99_twice_refuted)
