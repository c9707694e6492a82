{"id": "C01", "title": "Signed integer key fields sort like the integers", "statement": "For any key builder and any two int16 (int32, int64) values a and b, the key bytes obtained by adding a as a field are lexicographically smaller than the bytes obtained by adding b if and only if a < b, and equal iff a = b. The minimum value of the type is included.", "quantifier": "all pairs of int16 / int32 / int64 values, all builder prefixes and field numbers", "why_tests_cant": "2^64 x 2^64 pairs; the overflow of -MinInt64 inside the encoder is exactly the case samples miss", "anchors": ["keys.go:AddInt64Field", "keys.go:AddInt32Field", "keys.go:AddInt16Field"]}
{"id": "C02", "title": "Unsigned and byte key fields sort like the numbers", "statement": "For any builder, adding uint16/uint32/uint64/byte values a and b gives byte strings ordered exactly as a and b, and equal only if a = b.", "quantifier": "all pairs of values, all builder prefixes", "why_tests_cant": "unbounded in practice (2^128 pairs)", "anchors": ["keys.go:AddUint64Field", "keys.go:AddUint32Field", "keys.go:AddUint16Field", "keys.go:AddByteField"]}
{"id": "C03", "title": "Big integer key fields sort like the integers within their width", "statement": "For a width of `bits` bits, AddBigIntField of any two big integers whose magnitude fits in bits/8 bytes gives byte strings ordered exactly as the integers (negative < 0 < positive) and distinct for distinct integers; a magnitude that does not fit panics and never silently truncates.", "quantifier": "all widths, all big integers, all builder prefixes", "why_tests_cant": "unbounded integers", "anchors": ["keys.go:AddBigIntField"]}
{"id": "C04", "title": "Descending index order reverses ascending order", "statement": "Ordering an index by a field with IndexOrderTypeDESC yields exactly the reverse of IndexOrderTypeASC: for all values a, b of the field type, DESC-key(a) < DESC-key(b) iff b < a.", "quantifier": "all pairs of values of every field type supported by IndexOrder", "why_tests_cant": "the failing case is a single value (the minimum of the signed type, where -x overflows) or length-dependent for byte strings", "anchors": ["index.go:OrderInt64", "index.go:OrderInt32", "index.go:OrderInt16", "index.go:OrderUint64", "index.go:OrderByte", "index.go:OrderBytes", "index.go:OrderBigInt"]}
{"id": "C05", "title": "Composite keys identify their field tuple", "statement": "Two field tuples of the same schema produce the same key bytes only if they are equal, for every schema with at most one variable-length (string/bytes) field, at any position and any number of fields (including more than 255 fields, where field ids wrap).", "quantifier": "all schemas, all tuples", "why_tests_cant": "infinitely many tuples; separators can be imitated by data", "anchors": ["keys.go:KeyBuilder", "keys.go:putFieldID"]}
{"id": "C06", "title": "Composite keys sort field by field", "statement": "For a schema whose fields are fixed width except possibly the last, composite keys compare like the tuples compared field by field.", "quantifier": "all such schemas, all pairs of tuples", "why_tests_cant": "infinitely many tuples", "anchors": ["keys.go:KeyBuilder"]}
{"id": "C07", "title": "Keys decode to what was encoded", "statement": "KeyDecode(KeyEncode(k)) returns k for every key with a non-empty primary key whose index and order parts are shorter than 2^32 bytes. (For a key prefix, i.e. an empty primary key, decoding does not return.)", "quantifier": "all keys", "why_tests_cant": "unbounded key contents", "anchors": ["keys.go:KeyEncode", "keys.go:KeyDecode"]}
{"id": "C08", "title": "Direct and structured key encoders agree, and an index key leads to its row key", "statement": "KeyEncodeRaw with functions that append index, order and primary key bytes returns the buffer followed by exactly the bytes of KeyEncode; the table id, index id, index part and data key read back from an encoded index key are those of the record.", "quantifier": "all keys and all pre-filled buffers", "why_tests_cant": "unbounded key contents and buffers", "anchors": ["keys.go:KeyEncodeRaw", "keys.go:ToDataKeyBytes", "keys.go:KeyBytes.Index", "keys.go:ToDataKey"]}
{"id": "C09", "title": "Physical key order and disjoint key spaces", "statement": "Encoded keys are ordered by table, then index id, then index-part length, index part, order-part length, order part and primary key; distinct (table, index, index part, order part, primary key) give distinct keys, so two tables or two indexes never share a key.", "quantifier": "all pairs of keys", "why_tests_cant": "unbounded key contents", "anchors": ["keys.go:KeyEncode", "table.go:key", "index.go:encodeIndexKey"]}
{"id": "C10", "title": "The key comparer's prefix split is monotone", "statement": "For well-formed keys a <= b the split prefixes satisfy prefix(a) <= prefix(b), a prefix is a prefix of its key, and two keys have the same prefix iff they have the same table, index and index part. (Pebble's Split contract.)", "quantifier": "all pairs of well-formed keys", "why_tests_cant": "unbounded key contents", "anchors": ["keys.go:_KeyPrefixSplitIndex", "keys.go:DefaultKeyComparer"]}
{"id": "C11", "title": "The upper bound computed for a prefix scan selects exactly the keys with that prefix", "statement": "For a key prefix p, the half-open interval [p, successor(p)) contains exactly the keys that start with p.", "quantifier": "all prefixes and keys", "why_tests_cant": "unbounded; fails only when the prefix ends in 0xFF", "anchors": ["table.go:keySuccessor"]}
{"id": "C12", "title": "Insert adds exactly the given rows", "statement": "On a table in a consistent state, Insert of rows whose primary keys are pairwise distinct and not present returns no error and afterwards the table contains exactly the old rows plus the given rows, with every secondary index updated; nothing else in the database changes. If some primary key is present, it returns an error.", "quantifier": "all tables, index sets, database contents, row lists of any length, any order of index maintenance and any sort tie-breaking", "why_tests_cant": "unbounded states and inputs", "anchors": ["table.go:Insert", "index.go:OnInsert"]}
{"id": "C13", "title": "A failed or cancelled write call changes nothing", "statement": "If Insert, Update, Upsert, Delete or their unsafe variants (called without an external batch) return an error - duplicate, missing row, serialization failure, cancellation at any row - the database is byte-for-byte unchanged; if they succeed all their changes become visible together.", "quantifier": "all inputs, all error positions, all cancellation points, all crash points before the commit", "why_tests_cant": "every row is a possible failure/crash point", "anchors": ["table.go:Insert", "table.go:Update", "table.go:Upsert", "table.go:Delete", "table_unsafe.go"]}
{"id": "C14", "title": "Insert rejects a primary key that occurs twice in one call", "statement": "Insert of a row list in which two rows have the same primary key returns an error and changes nothing, whatever the length of the list.", "quantifier": "all row lists with a repeated key", "why_tests_cant": "only fails across internal chunk boundaries of 5000 rows", "anchors": ["table.go:Insert", "table.go:batched", "table.go:keyDuplicate"]}
{"id": "C15", "title": "Update replaces exactly the given rows", "statement": "Update of rows that are all present returns no error; afterwards each given row is stored in place of the old version, every secondary index points to the new version and no longer to the old one, and all other rows are unchanged. If some row is missing it returns an error.", "quantifier": "all tables, contents, row lists of any length", "why_tests_cant": "unbounded states and inputs", "anchors": ["table.go:Update", "index.go:OnUpdate"]}
{"id": "C16", "title": "Upsert inserts or merges each row", "statement": "Upsert of rows with pairwise distinct keys stores onConflict(old, new) for each key that was present and new for each key that was absent, with indexes following, and changes nothing else.", "quantifier": "all tables, contents, row lists of any length, all key-preserving onConflict functions", "why_tests_cant": "unbounded states and inputs", "anchors": ["table.go:Upsert"]}
{"id": "C17", "title": "Upsert folds repeated keys of one call through onConflict", "statement": "If the same primary key occurs several times in one Upsert call, the stored row is the fold of onConflict over the stored row and the given rows of that key, a row is stored only under its own primary key, and the indexes reflect the final row.", "quantifier": "all row lists with repeats", "why_tests_cant": "depends on the permutation between input order and key order", "anchors": ["table.go:Upsert", "table.go:sortKeys"]}
{"id": "C18", "title": "Delete removes the row and all its index entries", "statement": "Delete of given rows removes each stored row with that primary key and all of its index entries; other rows and entries are unchanged; deleting absent rows is a no-op.", "quantifier": "all tables, contents, row lists", "why_tests_cant": "unbounded states and inputs", "anchors": ["table.go:Delete", "index.go:OnDelete"]}
{"id": "C19", "title": "Secondary indexes stay exact over every history", "statement": "After any sequence of Insert, Update, Upsert and Delete calls, successful or failed, starting from an empty table, each secondary index contains exactly one entry for each stored row accepted by the index filter and no other entry.", "quantifier": "all operation sequences, all index sets including filtered and ordered indexes", "why_tests_cant": "unbounded histories", "anchors": ["table.go", "index.go"]}
{"id": "C20", "title": "Reads return the latest write", "statement": "After any sequence of write calls, successful or failed, each giving pairwise distinct primary keys (see C14, C15, C17 for repeated ones), GetPoint, Get(point) and Exist report for each primary key exactly the row last written and not deleted, or not-found; a Delete needs only the right primary key.", "quantifier": "all histories, all keys", "why_tests_cant": "unbounded histories", "anchors": ["table.go:Get", "table.go:GetPoint", "table.go:Exist"]}
{"id": "C21", "title": "Multi-point Get is positional", "statement": "Get with a points selector returns a list of the same length as the points, whose i-th element is the stored row with the i-th point's primary key or the nil value when absent, for any order and repetition of points.", "quantifier": "all point lists, contents, sort tie-breakings", "why_tests_cant": "all permutations and repetitions", "anchors": ["table.go:get", "table.go:sortKeys", "table.go:reorderValues"]}
{"id": "C22", "title": "A full scan returns every row once, in primary key order", "statement": "Scan returns every stored row exactly once in ascending primary-key byte order and, with reverse, in exactly the opposite order; a point selector on the primary index returns the rows from that key on.", "quantifier": "all contents", "why_tests_cant": "unbounded contents", "anchors": ["table.go:Scan", "table.go:scanForEachPrimaryIndex", "index.go:Iter"]}
{"id": "C23", "title": "A point selector on a secondary index returns exactly the matching rows", "statement": "ScanIndex with a point selector returns exactly the stored rows accepted by the index filter whose index key equals the selector's and whose (order part, primary key) is at or after the selector's, in that order, each once.", "quantifier": "all contents, selectors, indexes", "why_tests_cant": "the failing index keys are those whose last byte is 0xFF", "anchors": ["index.go:Iter", "table.go:scanForEachSecondaryIndex", "table.go:keySuccessor"]}
{"id": "C24", "title": "Range selectors are inclusive on both ends and nothing more", "statement": "A range selector (low, high) selects exactly the rows whose position in the index is between that of low and that of high, both included.", "quantifier": "all contents, bounds, indexes", "why_tests_cant": "the failing upper bounds are those whose last byte is 0xFF", "anchors": ["index.go:Iter", "selector.go:SelectorRange"]}
{"id": "C25", "title": "Multi selectors concatenate, and reverse mirrors", "statement": "A points or ranges selector visits the selections of its elements one after another in the given order, skipping empty ones; iterating in reverse visits exactly the mirrored sequence. An empty points/ranges selector selects nothing.", "quantifier": "all lists of bounds, all contents, both directions", "why_tests_cant": "unbounded lists with empty gaps in arbitrary places", "anchors": ["iter.go:_iteratorMulti", "index.go:Iter"]}
{"id": "C26", "title": "Index scans call back once per row with the right record", "statement": "ScanIndexForEach calls the callback exactly once for each selected index entry in order until the callback stops it, and Lazy.Get returns the row of that entry, whatever the prefetch size and whichever rows the callback chooses to load.", "quantifier": "all contents, prefetch sizes, callbacks", "why_tests_cant": "callbacks are arbitrary programs; prefetch boundaries are arbitrary", "anchors": ["table.go:scanForEachSecondaryIndex", "lazy.go"]}
{"id": "C27", "title": "Filter, offset and limit behave like list operations", "statement": "A query without Order returns take(limit, drop(offset, filter(rows))) of the rows selected by its index selector (limit 0 = unlimited), loading no more rows than necessary.", "quantifier": "all contents, filters, offsets, limits", "why_tests_cant": "unbounded; arithmetic on offset+limit can overflow", "anchors": ["query.go:executeQuery"]}
{"id": "C28", "title": "Order sorts all selected rows before offset and limit", "statement": "A query with Order returns take(limit, drop(offset, s)) where s is the selected and filtered rows sorted by the given less function; After drops everything up to and including the given row.", "quantifier": "all contents, less functions (strict weak orders), offsets, limits, any (unstable) sort", "why_tests_cant": "unbounded", "anchors": ["query.go:executeQuery"]}
{"id": "C29", "title": "Paging with After enumerates every row exactly once", "statement": "Running a query with Limit(n) repeatedly, each time with After(last row of the previous page), returns pages whose concatenation is exactly the unpaged result.", "quantifier": "all contents, page sizes, number of pages, index selectors, directions", "why_tests_cant": "unbounded iteration; fails in specific selector/direction combinations", "anchors": ["query.go:executeQuery", "query.go:selectorWithAfter"]}
{"id": "C30", "title": "Intersects returns exactly the rows selected by all parts", "statement": "A query with Intersects returns, in primary-key order, exactly the rows selected by every participating index selector and accepted by the filter, each once, with Order/After/Offset/Limit applied as for plain queries.", "quantifier": "all contents, selector lists", "why_tests_cant": "unbounded", "anchors": ["index.go:Intersect", "query.go:executeIntersect"]}
{"id": "C31", "title": "Tables, user keys and system keys do not interfere", "statement": "A write call on one table leaves every key of every other table, every user-space key and the bond system keys unchanged, and its reads do not depend on them.", "quantifier": "all tables with different ids, all operations, all contents", "why_tests_cant": "unbounded", "anchors": ["table.go", "keys.go:NewUserKey", "version.go"]}
{"id": "C32", "title": "A read-write batch reads its own writes, and committing it equals doing the calls directly", "statement": "Calls given a read-write batch behave as if all earlier calls on that batch had been applied to the database, leave the database unchanged until Commit, and after Commit the database is the same as if the calls had been made directly.", "quantifier": "all sequences of calls on a batch", "why_tests_cant": "unbounded histories", "anchors": ["batch.go", "table.go", "bond.go:Batch"]}
{"id": "C33", "title": "A scan or get through any batch reports either the rows or an error", "statement": "Reading through a batch never silently returns an empty or not-found answer for rows that exist.", "quantifier": "both batch types, all contents", "why_tests_cant": "depends on batch type and error path", "anchors": ["iter.go:errIterator", "table.go:scanForEachPrimaryIndex", "batch.go:Get"]}
{"id": "C34", "title": "Batch callbacks follow the commit protocol", "statement": "OnCommit callbacks run in order before the write and can veto it; OnCommitted callbacks run exactly once and only after a successful commit; OnError callbacks run exactly on failure; OnClose callbacks run on Close; committing an empty batch runs none.", "quantifier": "all sequences of batch operations and callback registrations, all commit outcomes", "why_tests_cant": "unbounded protocol histories", "anchors": ["batch.go"]}
{"id": "C35", "title": "Generated sequence numbers are unique and increasing", "statement": "Successive NumberSequence.Next results that return no error are strictly increasing and pairwise distinct, their Timestamp is the generation second, and more than 2^24 numbers in one second is reported as an error rather than reusing a number.", "quantifier": "all call histories and all clock behaviours", "why_tests_cant": "needs 2^24 calls in a second, or a clock step", "anchors": ["helpers.go:NumberSequence"]}
{"id": "C36", "title": "ReIndex rebuilds an index exactly", "statement": "After ReIndex of some indexes succeeds, each of them contains exactly the entries of the stored rows accepted by its filter, whatever it contained before; rows and other indexes are unchanged; this holds for every index id and number of rows, and repeating it changes nothing.", "quantifier": "all contents, index ids 1..255, row counts", "why_tests_cant": "unbounded; fails only for index id 255", "anchors": ["table.go:ReIndex"]}
{"id": "C37", "title": "AddIndex with a duplicate id fails cleanly", "statement": "AddIndex that returns a duplicate-id error leaves the table usable and its index set unchanged.", "quantifier": "all index lists, all later operations", "why_tests_cant": "the failure is a lock that is never released", "anchors": ["table.go:AddIndex"]}
{"id": "C38", "title": "Concurrent calls on different rows do not disturb each other", "statement": "For any number of concurrent write calls whose primary-key sets are pairwise disjoint, every interleaving of their reads and commits gives each call the result it would have alone and leaves the database in the state of running them one after another in any order.", "quantifier": "all schedules of any number of calls", "why_tests_cant": "exponentially many schedules", "anchors": ["table.go:Insert", "table.go:Update", "table.go:Upsert"]}
{"id": "C39", "title": "Concurrent calls on the same row are serializable", "statement": "For any schedule of concurrent Insert/Update calls on the same row the result is that of some serial order; in particular two concurrent Inserts of one key do not both succeed and indexes stay exact.", "quantifier": "all schedules", "why_tests_cant": "race between the existence check and the commit", "anchors": ["table.go:Insert", "table.go:Update"]}
{"id": "C40", "title": "Bloom filters have no false negatives", "statement": "After Add(k), MayContain(k) is true from then on, whatever other keys are added and whatever the number of buckets, hash functions and size.", "quantifier": "all histories of Add and Load, all keys", "why_tests_cant": "unbounded histories", "anchors": ["bloom/bloom_filter.go"]}
{"id": "C41", "title": "A saved filter loads back with no false negatives", "statement": "If Save completes and later Load succeeds on a filter of the same configuration, every key added before the Save is reported as possibly contained; a changed bucket count or a missing bucket makes Load fail instead of losing keys.", "quantifier": "all histories of Add/Save/Load/Clear, all crash points", "why_tests_cant": "crash points and histories are unbounded", "anchors": ["bloom/bloom_filter.go:Save", "bloom/bloom_filter.go:Load", "bloom/bloom_filter.go:Clear"]}
{"id": "C42", "title": "A filter restored after a crash covers every committed row", "statement": "For every crash point of a process that uses a filter, FilterInitialize in the next process yields a filter that reports every committed row as possibly contained, so no stored row becomes invisible and no duplicate insert is admitted.", "quantifier": "all histories and crash points", "why_tests_cant": "needs a crash between an insert and the next Save", "anchors": ["filter.go:FilterInitialize", "bloom/bloom_filter.go", "table.go:Exist"]}
{"id": "C43", "title": "Concurrent Adds are never lost", "statement": "For any interleaving of concurrent Add calls, every added key is reported by MayContain and is persisted by the next Save.", "quantifier": "all interleavings of the memory accesses of Add", "why_tests_cant": "data race windows", "anchors": ["bloom/bloom_filter.go:Add"]}
{"id": "C44", "title": "A correct filter never changes results", "statement": "For any filter without false negatives that covers the stored keys, every table operation returns the same result and leaves the same database as without a filter, and the filter keeps covering the stored keys.", "quantifier": "all histories, all filters with no false negatives", "why_tests_cant": "unbounded histories", "anchors": ["table.go", "filter.go"]}
{"id": "C45", "title": "The file filter store deletes only the requested range and keeps keys apart", "statement": "FilterFSStorer.DeleteRange(start, end) removes exactly the entries with start <= key < end, and Set of one key does not affect Get of another key.", "quantifier": "all key sets and ranges", "why_tests_cant": "unbounded", "anchors": ["filters/filter_fs_storer.go"]}
{"id": "C46", "title": "Restore reproduces exactly the requested tables of a Dump", "statement": "Dump of tables D followed by Restore of tables R (R subset of D) into a database makes every row (and index entry, if requested) of the tables in R equal to the dumped snapshot, and touches no key of any table outside R, for every dump directory name.", "quantifier": "all contents, table sets, directory names, file split points", "why_tests_cant": "fails for particular table ids and directory names", "anchors": ["bond.go:Dump", "bond.go:Restore", "bond.go:iteratorToSST"]}
{"id": "C47", "title": "Index discovery finds exactly the indexes in use", "statement": "The index ids exported for a table are exactly the ids 1..255 under which the database holds at least one key of that table, in increasing order, each once.", "quantifier": "all database contents, all tables", "why_tests_cant": "unbounded contents; boundary id 255", "anchors": ["bond.go:getIndexIDS"]}
{"id": "C48", "title": "Open refuses a database of another format version, and migration survives crashes", "statement": "Open succeeds on a directory iff the recorded format version equals the requested one (or none is recorded), and never changes an existing record; after MigratePebbleFormatVersion(v), interrupted at any point, the database can still be opened with either the old or the new version.", "quantifier": "all directory states, versions, crash points", "why_tests_cant": "crash points between file operations", "anchors": ["bond.go:Open", "bond.go:MigratePebbleFormatVersion", "bond.go:PebbleFormatVersion"]}
{"id": "C49", "title": "A pooled buffer has one owner", "statement": "As long as callers return only buffers they obtained and do so at most once, no buffer is handed to two callers at the same time, and the pool keeps at most its configured number of preallocated items.", "quantifier": "all histories of Get/Put by any number of callers", "why_tests_cant": "unbounded histories", "anchors": ["utils/sync.go:PreAllocatedPool"]}
{"id": "C50", "title": "Building keys does not modify the caller's record", "statement": "Computing primary, index and order keys of a record leaves the record unchanged, so the same record gives the same keys every time.", "quantifier": "all records, field values, number and order of indexes", "why_tests_cant": "aliasing between record and key builder", "anchors": ["index.go:OrderBytes"]}
{"id": "C51", "title": "Key builders and queries can be extended independently", "statement": "Extending one KeyBuilder (or Query) value in two different ways gives two independent results.", "quantifier": "all buffer capacities and extension sequences", "why_tests_cant": "depends on slice capacity", "anchors": ["keys.go:putFieldID", "query.go:Intersects"]}
{"id": "C52", "title": "Pooled serializers return exactly the current value's bytes", "statement": "SerializerWithCloseable returns the encoding of its argument and nothing else, whatever was serialized and released before.", "quantifier": "all call histories, pool behaviours", "why_tests_cant": "needs reuse of a released buffer", "anchors": ["serializers/msgp.go", "serializers/msgp_gen.go"]}
{"id": "C53", "title": "Conditions form the expected boolean algebra", "statement": "And/Or/Not/Eq/Gt/Gte/Lt/Lte evaluate to the corresponding boolean combination for any nesting depth and any record, including empty And (true) and Or (false); a nil condition reached while evaluating panics, one behind a member that already settles And or Or is never reached.", "quantifier": "all condition trees and records", "why_tests_cant": "unbounded nesting", "anchors": ["cond/cond.go"]}
{"id": "C54", "title": "SyncBatch runs its functions one at a time", "statement": "For any number of goroutines and any schedule, the functions passed to SyncBatch.WithSync execute one at a time on the batch, each exactly once, and none waits forever once the others have returned.", "quantifier": "all schedules of any number of goroutines", "why_tests_cant": "exponentially many schedules", "anchors": ["sync.go"]}
{"id": "C55", "title": "Chunked processing visits every row once in order", "statement": "Splitting a row list into chunks visits consecutive non-empty pieces whose concatenation is the list, none longer than the chunk size, and stops at the first error.", "quantifier": "all list lengths, chunk sizes >= 1", "why_tests_cant": "boundary arithmetic over all lengths", "anchors": ["table.go:batched"]}
{"id": "C56", "title": "A type-erased scanner behaves like the scanner it wraps", "statement": "TableAnyScanner(s) yields the same rows, in the same order and through the same batch, as s.", "quantifier": "all contents, batches, callbacks", "why_tests_cant": "an omitted argument is invisible to tests that do not use batches", "anchors": ["table_utils.go:TableAnyScanner"]}
{"id": "C57", "title": "Update and Upsert treat each row of a call independently", "statement": "The index changes made for one row of an Update/Upsert call depend only on that row and its stored version, not on other rows of the call, for any serializer that restores a value into a fresh variable correctly.", "quantifier": "all row lists and serializers", "why_tests_cant": "needs a serializer that leaves residue in a reused variable", "anchors": ["table.go:Update", "table.go:Upsert"]}
{"id": "C58", "title": "The unsafe variants equal the safe ones on valid input", "statement": "UnsafeInsert of rows whose primary keys are distinct and absent, and UnsafeUpdate of present rows given their stored versions, leave the same table content, indexes and filter coverage as Insert and Update would, and change nothing else.", "quantifier": "all tables, contents, row lists and chunkings", "why_tests_cant": "all contents and row counts", "anchors": ["table_unsafe.go:UnsafeInsert", "table_unsafe.go:UnsafeUpdate"]}
{"id": "C59", "title": "Filters that share a store do not disturb each other", "statement": "Any number of operations on two filters that keep themselves in the same store give each filter the buckets and results it would have had alone, and never change rows or index entries of tables.", "quantifier": "all histories of Add/Save/Load/Clear on two filters, all configurations, interruptions", "why_tests_cant": "needs two filters in one store and every interleaving of their operations", "anchors": ["bloom/bloom_filter.go:NewBloomFilter", "bloom/bloom_filter.go:Save", "bloom/bloom_filter.go:Clear"]}
{"id": "C60", "title": "Rows and index entries can be told apart by their keys", "statement": "For every key a table writes, IsDataKey holds exactly for rows and IsIndexKey exactly for index entries, both on the encoded key bytes and on the decoded key.", "quantifier": "all table ids, index ids, index parts, order parts and primary keys", "why_tests_cant": "all byte strings", "anchors": ["keys.go:IsDataKey", "keys.go:IsIndexKey", "keys.go:KeyDecode"]}
{"id": "C61", "title": "Open checks the data version and marks a new database", "statement": "A successful Open leaves a database with the supported data version; Open of a database with any other data version fails; and Open changes no stored pair other than setting the data version where there was none.", "quantifier": "all database contents, versions, crash points", "why_tests_cant": "all contents of the version record and all crash points", "anchors": ["bond.go:Open", "version.go:Version", "version.go:initVersion"]}
{"id": "C62", "title": "A table holds only what was written through it", "statement": "Opening a database, and storing anything under user keys, never adds, removes or changes a row or index entry of a table, whatever its table id.", "quantifier": "all table ids, contents, user keys, crash points of Open", "why_tests_cant": "all table ids and contents", "anchors": ["bond.go:Open", "version.go:bondDataVersionKey", "keys.go:NewUserKey"]}
{"id": "C63", "title": "Crashes lose nothing that was reported as done and never tear rows from indexes", "statement": "After any history of write calls, batches and crashes, the rows and index entries are exactly those of the deeds that survived: every successful call made without a batch and every batch committed with Sync survives, a batch committed with NoSync survives completely or not at all, and not without the deeds of its process before it.", "quantifier": "all histories of calls, batches and crashes, all crash points and numbers of log entries that reach the disk, all tables", "why_tests_cant": "all crash points of all histories", "anchors": ["table.go:Insert", "table.go:Update", "table.go:Upsert", "table.go:Delete", "batch.go:Commit", "bond.go:pebbleWriteOptions"]}
{"id": "C64", "title": "Paging with After through a table that changes between the pages", "statement": "If the table is changed arbitrarily between the pages of a query paged with Limit and After, no row is returned twice, every row returned is one the query asks for when its page is run, every row that the query asks for throughout is returned, and paging ends once no new rows come.", "quantifier": "all histories of contents between the pages, all queries, page sizes and tables", "why_tests_cant": "all interleavings of pages and writes", "anchors": ["query.go:After", "query.go:executeQuery", "query.go:selectorWithAfter"]}
{"id": "C65", "title": "Index scans while rows are written", "statement": "A scan of an index that runs while other calls commit returns every selected row nobody wrote meanwhile, returns no primary key twice and only rows that were stored at some moment; it shows the table of one moment, and does not fail because a row was deleted.", "quantifier": "all tables, indexes, selectors, directions, and all histories of commits between the reads of a scan", "why_tests_cant": "all interleavings of a scan's reads and commits", "anchors": ["table.go:ScanIndex", "table.go:ScanIndexForEach", "table.go:scanForEachSecondaryIndex", "table.go:get"]}
{"id": "C66", "title": "Building an index while other calls write", "statement": "If AddIndex or ReIndex runs while other calls commit, it succeeds, disturbs nothing outside the indexes it builds, and afterwards these indexes hold exactly the entries of the rows in the table.", "quantifier": "all tables, indexes, contents, and all batches committed between any two steps of the call", "why_tests_cant": "all interleavings of the steps of ReIndex and commits", "anchors": ["table.go:AddIndex", "table.go:ReIndex", "table.go:Insert", "table.go:Update", "table.go:Delete"]}
{"id": "C67", "title": "The inspector's queries show the rows that meet them", "statement": "A query of the inspector, given by names of a table and an index and by maps of field values, shows exactly the rows of the table that lie on the index from the selector on, meet the filter field by field and come after the given row, in the order of the index, cut at the limit. Names that do not exist give an error. Paging with After shows each such row once.", "quantifier": "all tables, record types, stored rows, indexes, requests with any field values and limits", "why_tests_cant": "requests carry values of any Go type, which reflection converts to the types of the fields; tests use a few values that fit, on a few rows", "anchors": ["inspect/inspect.go: Query, findTableAndIndexInfo, setFields, Tables, Indexes, EntryFields", "utils/reflect.go: MakeValue", "table.go: Name, Indexes, EntryType, SelectorPointType"]}
{"id": "C68", "title": "The remote inspector shows what the inspector shows", "statement": "A query of the remote inspector, whose request and answer are sent as JSON, shows the rows the inspector at the other end would show for the same request, with the same values; paging with the rows received shows each row once and ends.", "quantifier": "all tables, record types, stored rows, requests with any field values", "why_tests_cant": "every number becomes a float64 on the way there and back; tests use small numbers", "anchors": ["inspect/inspect_handler.go: buildQueryHandler", "inspect/inspect_handler_client.go: Query", "inspect/inspect.go: Query"]}
{"id": "C69", "title": "Calls release what they open", "statement": "A call of the API closes every iterator, batch, value, file, snapshot and lock it opens exactly once, whether it succeeds, fails or the caller's code panics, uses none of them after closing it, and never closes a batch the caller gave it.", "quantifier": "every run of the modelled functions: every choice of conditions and errors, every number of loop rounds, every place where user code panics", "why_tests_cant": "A leak on one error path or panic of a callback shows only as an error of Close, a lock held for ever or memory growing much later; tests take few of the paths.", "anchors": ["table.go:Insert", "table.go:Update", "table.go:Upsert", "table.go:Delete", "table.go:Exist", "table.go:Get", "table.go:ScanIndexForEach", "table.go:ReIndex", "table.go:AddIndex", "table_unsafe.go:UnsafeUpdate", "table_unsafe.go:UnsafeInsert", "index.go:Intersect", "iter.go:_iteratorMulti", "bond.go:Open", "bond.go:Dump", "bond.go:getIndexIDS", "bond.go:iteratorToSST", "bond.go:MigratePebbleFormatVersion", "version.go:Version", "bloom/bloom_filter.go:Load", "bloom/bloom_filter.go:Save"]}
{"id": "C70", "title": "Calls that share pooled buffers do not disturb each other", "statement": "Every Insert, Update, Upsert, Delete, UnsafeInsert, UnsafeUpdate, Exist and Get has the outcome it would have if each key and value had memory of its own, although the keys and values are built in buffers taken from pools that other goroutines share; it never changes memory it did not take, and the buffers it gives back overlap nowhere.", "quantifier": "all tables, rows, batches, buffer sizes and growth, and everything other goroutines do between any two steps of the call to memory the call does not hold", "why_tests_cant": "An aliasing mistake shows only when a buffer is too small or large enough at the wrong moment, or when another goroutine gets the same memory in between; tests see few sizes and schedules.", "anchors": ["table.go:Insert", "table.go:Update", "table.go:Upsert", "table.go:Delete", "table.go:Exist", "table.go:Get", "table.go:keysExternal", "table.go:sortKeys", "table_unsafe.go:UnsafeUpdate", "table_unsafe.go:UnsafeInsert", "index.go:OnInsert", "index.go:OnUpdate", "index.go:OnDelete", "keys.go:KeyEncodeRaw", "bond.go:getKeyBufferPool", "bond.go:getMultiKeyBuffer"]}
{"id": "C71", "title": "Scans and queries share pooled buffers without disturbing each other or the keys they hand out", "statement": "ScanIndex, ScanForEach, ScanIndexForEach, the scan that fills a filter, and queries, with Intersects or without, take the buffers for bounds, keys and values from pools that all goroutines share, and hand the callback a slice of the iterator's own memory. They give the rows and errors they would give if every key and value had memory of its own, whatever other goroutines do to memory that this call does not hold, and the buffers they give back overlap nowhere.", "quantifier": "every table and index whose key functions append, every selector, direction, batch and callback that looks at its key during the call and before Get, all buffers and capacities, every growth of memory, everything other goroutines write between two steps", "why_tests_cant": "The outcome depends on which buffers the pools hand out, on their capacities, on how append grows them and on what other goroutines write meanwhile.", "anchors": ["table.go:Table.ScanIndexForEach", "table.go:Table.scanForEachSecondaryIndex", "table.go:Table.scanForEachPrimaryIndex", "index.go:Index.Iter", "iter.go:_iteratorMulti", "query.go:Query.executeQuery", "query.go:Query.executeIntersect", "index.go:Index.Intersect", "utils/unsafe.go:StringToBytes", "filter.go:FilterInitialize"]}
{"id": "C72", "title": "A database with several tables behaves like a set of independent abstract tables", "statement": "Open a database and use any number of tables with different ids and rows of any types, together with keys of the user's own that start with no table's id. Run any sequence of Insert, Update, Upsert, Delete, Get, Exist, Get of points, index scans, queries (with filter, order, offset, limit, after and intersections), AddIndex with reindexing, Set, Delete and Get of own keys, directly or through a read-write batch that is begun, committed or closed. Every answer is the one an abstract database gives: one map from primary key to row per table and one map for the own keys. Calls on one table never affect another table or the own keys; a failed direct call changes nothing; a batch sees its writes over the committed content, direct readers see none of them before the commit, and all of them after it; a closed batch or a failed commit leaves nothing.", "quantifier": "all sets of tables, all row types, all sequences of calls of any length, all arguments that satisfy the per-call provisos of the other claims (distinct primary keys in one call, rows whose index entries fit, deleted rows with the stored index entries, exact selectors), all choices of which commits fail; no direct write while a batch is open", "why_tests_cant": "The interference of tables, batches, filters and index maintenance shows only in long mixed histories; tests run a handful of fixed ones over one table.", "anchors": ["table.go: Insert, Update, Upsert, Delete, Get, Exist, ScanIndex, AddIndex, ReIndex", "query.go: Execute", "batch.go: Commit, Close", "bond.go: Get, Set, Delete, Batch", "keys.go: KeyEncodeRaw"]}
{"id": "C73", "title": "A filter can be initialised in the background while the table is in use", "statement": "A table whose filter is a FilterInitializable can be written and read while Initialize is running in another goroutine: every call returns what it would return without a filter, no written row becomes invisible once Initialize returns and the filter is switched on, and the filter is switched on exactly when Initialize succeeds.", "quantifier": "all tables and records, all sets of concurrent Insert/Update/Upsert/Delete calls, all interleavings of their steps with those of Initialize (load, clear, opening the scan, each Add, the flag), all histories of the filter's store, all other scanners", "why_tests_cant": "a row is lost only if a write falls between the right two steps of the initialisation; tests run a handful of interleavings", "anchors": ["filter.go:24-46 FilterInitializable", "filter.go:56-75 FilterInitialize", "table.go:338-789", "table_utils.go:77-85", "bloom/bloom_filter.go:79-136"]}
{"id": "C74", "title": "A dump that was interrupted is never restored as if it were complete", "statement": "However the goroutines of Dump interleave, a Dump that returns without an error has written the same directory as one that writes table after table. If the process dies in the middle of Dump, Restore from the directory fails and changes nothing; it never restores wrong values or keys that were not asked for.", "quantifier": "all schedules of the goroutines of Dump, all points of interruption, all snapshots, all concurrent changes of the database, all tables asked for in Dump and Restore, all file sizes", "why_tests_cant": "an interruption hits one of unboundedly many points between the steps of several goroutines; a test can hardly stop a process there", "anchors": ["bond.go:378-439 Dump", "bond.go:525-558 iteratorToSST", "bond.go:441-499 Restore"]}
{"id": "C75", "title": "Any number of batches and direct writes side by side behave like sets of changes to an abstract database", "statement": "Any number of read-write batches can be open at once, with direct writes between their calls. A call in a batch acts on the batch's own changes over whatever is committed at that moment, no other call sees those changes, a commit makes exactly those changes whatever was committed in between, and applying one batch to another adds its changes.", "quantifier": "all tables, all interleavings of calls made directly and in any number of open batches, all rows and keys, all contents of the database", "why_tests_cant": "the interleavings of several open batches with direct writes are unbounded, and the entries a batch has computed from old rows are only used at its commit", "anchors": ["bond.go:242-297", "batch.go:58-163", "table.go:338-789", "index.go:280-353"]}
{"id": "C76", "title": "An inspector asked over HTTP answers as it does locally, or fails as a whole", "statement": "A client of NewInspectRemote answers Tables, Indexes, EntryFields and Query exactly as the inspector behind NewInspectHandler does, names and values going through JSON, or every one of its calls returns an error; which of the two depends only on its URL and headers.", "quantifier": "all tables and their contents, all base URLs and headers, all table names and query requests", "why_tests_cant": "URLs, headers, names and requests are unbounded, and a test uses one URL and one table", "anchors": ["inspect/inspect_handler.go:10-246", "inspect/inspect_handler_client.go:24-177"]}
{"id": "C77", "title": "bond-cli prints what the inspector answers, and its dump and restore move the tables", "statement": "Each inspect command of bond-cli prints the answer of the inspector at its URL, asked with the given headers and the request the flags describe, or an error and nothing else. bond-cli dump followed by bond-cli restore gives the second database the wanted tables of the first and changes nothing else, and the exit status tells whether a command failed.", "quantifier": "all URLs, headers, commands and flags, all inspectors behind the URL, all databases and lists of table ids", "why_tests_cant": "command lines and databases are unbounded, and the command line tool has no tests at all", "anchors": ["inspect/inspect_cli.go:72-245", "cmd/bond-cli/bond-cli.go:11-25", "cmd/bond-cli/dump.go:32-56", "cmd/bond-cli/restore.go:8-31"]}
{"id": "C78", "title": "A database keeps its content from process to process, however they end", "statement": "A program that opens a database sees exactly what the programs before it left: all calls that returned before a Close, those of the OnClose callbacks included; after a crash all calls but a suffix of unsynced ones, no part of an open batch, and no visible effect of an AddIndex that was interrupted. Opening it succeeds whatever happened before, and neither opening nor migrating it changes any row or any of the user's keys.", "quantifier": "all sequences of processes, each with any declared tables, any calls, any callbacks, any way to end and any crash point, and all migrations between them", "why_tests_cant": "a test runs one process; the claim is about every history of processes and every point at which one of them can be killed", "anchors": ["bond.go:138-232", "bond.go:309-322", "bond.go:584-608", "table.go:248-336"]}
{"id": "C79", "title": "An intersecting query while other goroutines write the table", "statement": "A query with Intersects that runs while rows are written returns each primary key at most once, only rows that are stored when it fetches them, and every row nobody wrote meanwhile exactly if all parts and the filter want it; it answers as it would have at one moment.", "quantifier": "all tables, queries with any number of parts, single and multi selectors, all sequences of table contents and all choices of the moment each pebble iterator sees", "why_tests_cant": "the answer depends on which of the many iterators of one query fall before or after each write; a test sees a handful of schedules", "anchors": ["query.go:282-391", "index.go:355-403", "iter.go:80-147"]}
{"id": "C80", "title": "A query while other goroutines write the table", "statement": "A query without Intersects that runs while rows are written returns only rows stored at some moment that pass the filter, at most as many as its limit, and, without offset, limit and after, every row nobody wrote meanwhile exactly if selector and filter want it; its rows come in index order and it fails only if a row it needs is gone.", "quantifier": "all tables, indexes, selectors, filters, orders, offsets and limits below 2^63, both directions, all sequences of table contents and all choices of the moments that each iterator and each fetched block see", "why_tests_cant": "the answer depends on which iterators and blocks of one query fall before or after each write; a test sees a handful of schedules", "anchors": ["query.go:155-280", "table.go:1027-1194", "iter.go:80-147"]}
{"id": "C81", "title": "Contexts: the batch they carry and what cancelling them does", "statement": "A context derived from Background carries the batch and the sync batch given to it last, whatever else is stored in it. A write, scan or query whose context is cancelled at any time either returns the context's error or behaves exactly as if it had never been cancelled, so it never returns a part of its answer without an error; if the context was cancelled before the call, the call returns the context's error and changes nothing.", "quantifier": "all programs deriving contexts, all tables, database contents, batches, rows, selectors, callbacks, queries and all moments of cancellation", "why_tests_cant": "the moment at which a context is cancelled ranges over every ctx check of a call over any number of rows; a test cancels at one of them", "anchors": ["context.go:7-30", "table.go:338-789", "table.go:1019-1194", "table_unsafe.go:20-203", "index.go:355-403", "query.go:131-391"]}
{"id": "C82", "title": "Any request to the HTTP inspector is answered as documented by its path and body", "statement": "The inspector's HTTP handler answers every request, also one that its own client did not write: 404 if the path ends in none of /tables, /indexes, /entryFields, /query; 406 if the Accept header asks for something other than JSON; 500 with a JSON error if the body cannot be read or the inspector returns an error; otherwise 200 with what the inspector answers for the table or the query the body describes. Names of fields in the body may be spelled in capital letters, unknown ones are ignored, missing ones and null count as empty.", "quantifier": "all paths, Accept headers and JSON bodies, all tables and their answers", "why_tests_cant": "requests are texts of any shape; a test sends a handful through the client of the package, which uses the same constants as the handler", "anchors": ["inspect/inspect_handler.go:10-246"]}
{"id": "C83", "title": "An iterator acts as a cursor on the rows of its selector, whatever is called", "statement": "The iterators that Index.Iter, Table.Iter, DB.Iter and Batch.Iter return act as a cursor on the entries they cover: First, Last, Next, Prev, SeekGE and SeekLT move it to the entry their names say and return whether it is on one; Valid, Key and Value show that entry; Error is nil. Moving past an end and back works from both ends. An iterator that could not be opened returns false from every call and keeps its error.", "quantifier": "all tables, contents, indexes, selectors, batches, bounds and seek keys, and all sequences of calls", "why_tests_cant": "sequences of calls mixing directions and seeks are unbounded; the bugs of an iterator over several intervals show only at particular seams", "anchors": ["iter.go:13-252", "index.go:176-279", "table.go:992-994", "bond.go:275-281", "batch.go:110-112"]}
{"id": "C84", "title": "Reads return stored rows only, after any history of calls", "statement": "After any history of Insert, Update, Upsert and Delete calls, given any rows, repeated keys, outdated records to delete, any onConflict, and with calls that fail or are cancelled, scans and queries give their callers only rows that are stored and that the filter accepts, whichever index, selector, order, After, offset, limit and Intersects they use; and those that use the primary index return exactly the stored rows selected.", "quantifier": "all tables and serializers, all histories of calls and their arguments, all contents of the indexes, all callbacks, selectors and queries", "why_tests_cant": "the histories that leave wrong index entries depend on the chunk size and on how often a key is repeated, and what a read then meets depends on where its prefetch windows fall", "anchors": ["table.go:338-789", "table.go:848-1194", "query.go:155-473", "index.go:176-403"]}
{"id": "C85", "title": "A call that fails leaves nothing in the batch it was given", "statement": "An Insert, Update, Upsert or Delete that is given a read-write batch and returns an error, because a row is or is not there, cannot be serialized, or the context ends, leaves the batch as it was, so that committing the batch stores nothing of that call, and rows, index entries and filter agree.", "quantifier": "all tables, serializers and filters, all batches and what they hold, all histories of calls with a batch and which of them fail where, all chunk sizes and cancellations", "why_tests_cant": "what is left of a call depends on the row it fails at, on the chunk that row is in and on the order of the keys in it; it shows only after the batch is committed", "anchors": ["table.go:338-789", "batch.go:58-152"]}
{"id": "C86", "title": "The error of a write call tells the first row at fault, and chance has no part in the answer", "statement": "An Insert, Update, Upsert or Delete without a batch, or with a read-write one, goes through its rows in the one order given by their keys and the size of a chunk, and returns the error of the first row that is there already, is missing or cannot be serialized, or at which the context has ended; without such a row it succeeds. The answer and what is stored depend on nothing else, not on the order of Go's maps nor on how the keys are sorted.", "quantifier": "all tables, serializers and filters, all databases and batches, all calls and rows, all chunk sizes, cancellations, map orders and sorts", "why_tests_cant": "which row is named depends on every earlier row and on chunk boundaries, and map orders and ties of the sort differ from run to run", "anchors": ["table.go:338-789", "table.go:1196-1209", "table.go:1278-1297"]}
{"id": "C87", "title": "A read error of the storage is reported, never mistaken for missing rows", "statement": "If the storage cannot be read while a call runs, the call returns an error. It does not return fewer rows than are stored, report a stored row as missing, overwrite it, or build an index or a dump without it.", "quantifier": "all tables, databases, batches, selectors, callbacks and rows, and all sets of reads that fail", "why_tests_cant": "a test would have to make each single read of the storage fail in turn, in every state", "anchors": ["iter.go:43-49", "iter.go:89-147", "iter.go:202-252", "table.go:265-336", "table.go:389-401", "table.go:529", "table.go:818-834", "table.go:857-990", "table.go:1027-1194", "bond.go:525-558"]}
{"id": "C88", "title": "A query returns an error when the storage cannot be read, not fewer rows", "statement": "If the storage cannot be read while a query runs, the query returns an error. If it returns no error, its rows are those it would have returned had all reads worked, with or without filter, order, after, offset, limit and intersected queries.", "quantifier": "all tables, databases, batches and queries, and all sets of reads that fail", "why_tests_cant": "a test would have to make each single read of the storage fail in turn, for every query and state", "anchors": ["query.go:131-391", "index.go:355-403", "iter.go:43-49", "iter.go:89-147", "table.go:941-990", "table.go:1019-1194"]}
{"id": "C89", "title": "Pebble's comparer can split every key that bond stores", "statement": "Whatever is written through tables, batches, ReIndex, NewUserKey, stored filters, Open and Restore, every key in the database, and every key that a table call sets or deletes, can be split by the comparer that bond gives to pebble, and on such keys the comparer keeps pebble's Split contract. On no key of the database does Split panic.", "quantifier": "all databases reached by any sequence of calls on any tables, batches, ReIndex runs, filter saves, opens and restores, stopped anywhere", "why_tests_cant": "pebble splits keys in the background, when it flushes and compacts, so one bad key in any history makes the process panic later, far from the call that stored it", "anchors": ["keys.go:339-347 DefaultKeyComparer", "keys.go:155-163 NewUserKey", "bond.go:242-281", "bloom/bloom_filter.go:42-77", "bloom/bloom_filter.go:202-212", "table.go", "index.go", "version.go:26-42"]}
{"id": "C90", "title": "A filter's stored keys are its prefix and a number, and it writes to no memory of the caller", "statement": "A BloomFilter made with a key prefix of the caller stores and finds its buckets under exactly that prefix, in every sequence of Add, Save, Load, Clear and restarts of any number of filters over one store, wherever in memory the prefixes lie; and no call changes bytes of the caller.", "quantifier": "all memories and positions of the prefix slices, all growth policies of append, all stores, all sequences of calls of any number of filters, with saves stopped anywhere", "why_tests_cant": "the effect depends on the capacity of the slice the caller happens to pass and on the order of calls of different filters; a test with literal prefixes never has spare capacity", "anchors": ["bloom/bloom_filter.go:42-77 NewBloomFilter", "bloom/bloom_filter.go:93-194 Load, Save, Clear", "bloom/bloom_filter.go:202-212 buildKey, buildBucketNumKey"]}
{"id": "C91", "title": "A write call that is repeated until it is answered takes effect once", "statement": "However often the same Insert, Update, Delete or Upsert is made, with tries that are cancelled, fail, succeed, or are cut short by the death of the process before or after their commit, the database holds either what it held before or exactly what one successful call leaves, and the latter once any try was told success. A final undisturbed try brings it to what one call leaves; it is told success, or for Insert that the key exists if an earlier try took effect.", "quantifier": "all tables, databases, calls and sequences of tries, each try cancelled or cut short anywhere, with any filter after a restart", "why_tests_cant": "whether a call took effect is unknown after a crash or a lost answer; a test repeats calls only after known outcomes", "anchors": ["table.go:338-450 Insert", "table.go:452-575 Update", "table.go:577-635 Delete", "table.go:637-789 Upsert"]}
{"id": "C92", "title": "The order of the rows of a call, how rows are divided into calls, and the order of calls on different rows do not matter", "statement": "An Insert, Update, Upsert or Delete whose rows are given in another order succeeds or fails alike and leaves the same database, key by key. It succeeds exactly if the call with the first part of its rows succeeds and then the call with the rest, and both ways leave the same database. Two calls on rows with different keys answer alike and leave the same database in either order.", "quantifier": "all tables, databases, calls, permutations and divisions of their rows, and pairs of calls without a common key; all sorts and orders of maps", "why_tests_cant": "a test fixes one order of a few rows; agreement is a statement about all pairs of orders and about the whole stored database", "anchors": ["table.go:338-450 Insert", "table.go:452-575 Update", "table.go:577-635 Delete", "table.go:637-789 Upsert"]}
{"id": "C93", "title": "Close runs every OnClose function once, in order, on the open database, and then closes; Compact reaches every key", "statement": "Close calls each function registered with OnClose exactly once, in the order of registration, while the database can still be read and written, each seeing the writes of the ones before it; then the database is closed. A function registered meanwhile is kept and not run. A second Close changes no data and panics. Compact covers the keys of all tables and indexes.", "quantifier": "all numbers and kinds of functions, each deciding by the content it finds; all keys", "why_tests_cant": "the functions are arbitrary code that calls back into the database; a test registers one or two", "anchors": ["bond.go:298-307 Compact", "bond.go:309-312 Close", "bond.go:314-322 OnClose, notifyOnClose"]}
{"id": "C94", "title": "The stored database does not tell how its rows came about", "statement": "Two histories of write calls on the same database, failed and cancelled calls included, after which every Get answers the same leave the same database, byte by byte: index entries do not depend on the way. In particular Insert then Delete of the same rows, Delete then Insert, and Update then Update back leave the database as it was, and an Update with the stored rows changes nothing. An index added with reindexing after any history is as if it had been there from the beginning.", "quantifier": "all tables, databases and pairs of histories; all rows", "why_tests_cant": "leftovers of a history are visible only in index areas that the test does not scan, and there are unboundedly many ways to the same rows", "anchors": ["table.go:338-450 Insert", "table.go:452-575 Update", "table.go:577-635 Delete", "table.go:637-789 Upsert", "table.go:836-846 GetPoint"]}
{"id": "C95", "title": "A table that was dumped and restored into another database answers as it did", "statement": "Dump of tables while other calls write, and Restore into a database without these tables: each restored table holds the rows that the source had when the dump began, its indexes are exact, and every Get answers as it did then. With the indexes left out of the dump, AddIndex with reIndex on the restored table gives the same table. Nothing else in the target changes.", "quantifier": "all tables with any rows and indexes; all lists of tables, sizes of files and writes during the dump; all targets without the table", "why_tests_cant": "the rows, the division into files and the writes that fall into the dump are unbounded, and a wrong index entry shows only in the query that meets it", "anchors": ["bond.go:378-439 Dump", "bond.go:441-499 Restore", "table.go:237-263 AddIndex", "table.go:265-336 ReIndex", "table.go:836-846 GetPoint"]}
{"id": "C96", "title": "Pages by Offset and Limit make up the result", "statement": "A query run with Offset 0, n, 2n, ... and Limit n on a table that does not change returns, page after page, the first rows of the query without Offset and Limit, in its order, and enough pages return all of them, none twice and none left out; with Filter, Order, Reverse and any selector.", "quantifier": "all tables, rows, indexes, selectors, filters and orders; all page sizes and numbers of pages", "why_tests_cant": "every page is an own query that stops at an own row, and the numbers of rows, of pages and of rows per page are unbounded", "anchors": ["query.go:102-121 Offset, Limit", "query.go:155-391 Execute", "table.go:1061-1194 ScanIndexForEach"]}
{"id": "C97", "title": "Upsert stands for Insert and Update, and Update for Delete and Insert", "statement": "Where Insert of rows succeeds, Upsert of the same rows succeeds and leaves the same database, whatever onConflict does. Where Update succeeds, Upsert with an onConflict that replaces does the same, and so do Delete of the stored rows and Insert of the new ones. The databases are the same in every byte, index entries included.", "quantifier": "all tables, databases and lists of rows with distinct keys; all onConflict functions that keep the key", "why_tests_cant": "the ways differ in what they read and in the index entries they write and remove one by one, for unboundedly many rows, indexes and divisions into chunks", "anchors": ["table.go:338-450 Insert", "table.go:452-575 Update", "table.go:577-635 Delete", "table.go:637-789 Upsert"]}
{"id": "C98", "title": "The rows of an ordered query do not depend on the index", "statement": "Two queries that ask for the same stored rows through different indexes, one perhaps with a filter where the other uses the index or Intersects, with the same Offset, Limit and After and the same Order, give the same rows in the same order, if the Order tells stored rows apart. With ties in the Order they need not, and with a Limit even the rows can be others.", "quantifier": "all tables, databases, indexes, selectors, filters, orders and stored rows", "why_tests_cant": "an index reads other keys in another order, in unboundedly many batches, and the sort gets the rows in that order; a test compares a few lists", "anchors": ["query.go:155-391 Execute", "index.go:176-279 Iter", "index.go:355-403 Intersect", "table.go:1000-1194 ScanIndexForEach"]}
{"id": "C99", "title": "A filter in a query is a filter on its result", "statement": "Adding a condition to the filter of a query gives the rows that filtering the result of the query without it gives, in the same order; Offset and Limit count the rows the filter accepts. So for queries over any index and selector, with Reverse, with an Order that tells rows apart, and with Intersects.", "quantifier": "all tables, databases, indexes, selectors, conditions, offsets and limits", "why_tests_cant": "the condition is asked inside the scan, before or after sorting and counting depending on the query, for unboundedly many rows and any function", "anchors": ["query.go:82-85 Filter", "query.go:155-280 executeQuery", "query.go:282-391 executeIntersect"]}
{"id": "C100", "title": "The order and number of the parts of an intersecting query do not matter", "statement": "Two queries with Intersects that combine the same pairs of an index and a selector, whichever of them is the query itself and which are in Intersects, in any order and any number of times, with the same Filter, Order, Offset, Limit and After, have the same outcome: the same rows in the same order, or the same error, also through a batch that has changed rows.", "quantifier": "all tables, databases, batches, indexes, selectors and numbers of parts; all filters and less functions, whatever the sort does with ties", "why_tests_cant": "the parts are read in turn into sets of keys, unboundedly many, and the number of parts and their orders are unbounded too", "anchors": ["query.go:150-153 Intersects", "query.go:282-391 executeIntersect", "index.go:355-403 Intersect"]}
