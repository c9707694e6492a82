#!/usr/bin/env python3
# Source of properties.jsonl (run: python3 tools/props.py > properties.jsonl)
import json
P=[]
def p(id,title,statement,quant,why,anchors):
    P.append(dict(id=id,title=title,statement=statement,quantifier=quant,why_tests_cant=why,anchors=anchors))

p("C01","Signed integer key fields sort like the integers",
  "For any key builder and any two int16 (int32, int64) values a and b, the key bytes obtained by adding a as a field are lexicographically smaller than the bytes obtained by adding b if and only if a < b, and equal iff a = b. The minimum value of the type is included.",
  "all pairs of int16 / int32 / int64 values, all builder prefixes and field numbers",
  "2^64 x 2^64 pairs; the overflow of -MinInt64 inside the encoder is exactly the case samples miss",
  ["keys.go:AddInt64Field","keys.go:AddInt32Field","keys.go:AddInt16Field"])
p("C02","Unsigned and byte key fields sort like the numbers",
  "For any builder, adding uint16/uint32/uint64/byte values a and b gives byte strings ordered exactly as a and b, and equal only if a = b.",
  "all pairs of values, all builder prefixes",
  "unbounded in practice (2^128 pairs)",
  ["keys.go:AddUint64Field","keys.go:AddUint32Field","keys.go:AddUint16Field","keys.go:AddByteField"])
p("C03","Big integer key fields sort like the integers within their width",
  "For a width of `bits` bits, AddBigIntField of any two big integers whose magnitude fits in bits/8 bytes gives byte strings ordered exactly as the integers (negative < 0 < positive) and distinct for distinct integers; a magnitude that does not fit panics and never silently truncates.",
  "all widths, all big integers, all builder prefixes",
  "unbounded integers",
  ["keys.go:AddBigIntField"])
p("C04","Descending index order reverses ascending order",
  "Ordering an index by a field with IndexOrderTypeDESC yields exactly the reverse of IndexOrderTypeASC: for all values a, b of the field type, DESC-key(a) < DESC-key(b) iff b < a.",
  "all pairs of values of every field type supported by IndexOrder",
  "the failing case is a single value (the minimum of the signed type, where -x overflows) or length-dependent for byte strings",
  ["index.go:OrderInt64","index.go:OrderInt32","index.go:OrderInt16","index.go:OrderUint64","index.go:OrderByte","index.go:OrderBytes","index.go:OrderBigInt"])
p("C05","Composite keys identify their field tuple",
  "Two field tuples of the same schema produce the same key bytes only if they are equal, for every schema with at most one variable-length (string/bytes) field, at any position and any number of fields (including more than 255 fields, where field ids wrap).",
  "all schemas, all tuples",
  "infinitely many tuples; separators can be imitated by data",
  ["keys.go:KeyBuilder","keys.go:putFieldID"])
p("C06","Composite keys sort field by field",
  "For a schema whose fields are fixed width except possibly the last, composite keys compare like the tuples compared field by field.",
  "all such schemas, all pairs of tuples",
  "infinitely many tuples",
  ["keys.go:KeyBuilder"])
p("C07","Keys decode to what was encoded",
  "KeyDecode(KeyEncode(k)) returns k for every key with a non-empty primary key whose index and order parts are shorter than 2^32 bytes. (For a key prefix, i.e. an empty primary key, decoding does not return.)",
  "all keys",
  "unbounded key contents",
  ["keys.go:KeyEncode","keys.go:KeyDecode"])
p("C08","Direct and structured key encoders agree, and an index key leads to its row key",
  "KeyEncodeRaw with functions that append index, order and primary key bytes returns the buffer followed by exactly the bytes of KeyEncode; the table id, index id, index part and data key read back from an encoded index key are those of the record.",
  "all keys and all pre-filled buffers",
  "unbounded key contents and buffers",
  ["keys.go:KeyEncodeRaw","keys.go:ToDataKeyBytes","keys.go:KeyBytes.Index","keys.go:ToDataKey"])
p("C09","Physical key order and disjoint key spaces",
  "Encoded keys are ordered by table, then index id, then index-part length, index part, order-part length, order part and primary key; distinct (table, index, index part, order part, primary key) give distinct keys, so two tables or two indexes never share a key.",
  "all pairs of keys",
  "unbounded key contents",
  ["keys.go:KeyEncode","table.go:key","index.go:encodeIndexKey"])
p("C10","The key comparer's prefix split is monotone",
  "For well-formed keys a <= b the split prefixes satisfy prefix(a) <= prefix(b), a prefix is a prefix of its key, and two keys have the same prefix iff they have the same table, index and index part. (Pebble's Split contract.)",
  "all pairs of well-formed keys",
  "unbounded key contents",
  ["keys.go:_KeyPrefixSplitIndex","keys.go:DefaultKeyComparer"])
p("C11","The upper bound computed for a prefix scan selects exactly the keys with that prefix",
  "For a key prefix p, the half-open interval [p, successor(p)) contains exactly the keys that start with p.",
  "all prefixes and keys",
  "unbounded; fails only when the prefix ends in 0xFF",
  ["table.go:keySuccessor"])
p("C12","Insert adds exactly the given rows",
  "On a table in a consistent state, Insert of rows whose primary keys are pairwise distinct and not present returns no error and afterwards the table contains exactly the old rows plus the given rows, with every secondary index updated; nothing else in the database changes. If some primary key is present, it returns an error.",
  "all tables, index sets, database contents, row lists of any length, any order of index maintenance and any sort tie-breaking",
  "unbounded states and inputs",
  ["table.go:Insert","index.go:OnInsert"])
p("C13","A failed or cancelled write call changes nothing",
  "If Insert, Update, Upsert, Delete or their unsafe variants (called without an external batch) return an error - duplicate, missing row, serialization failure, cancellation at any row - the database is byte-for-byte unchanged; if they succeed all their changes become visible together.",
  "all inputs, all error positions, all cancellation points, all crash points before the commit",
  "every row is a possible failure/crash point",
  ["table.go:Insert","table.go:Update","table.go:Upsert","table.go:Delete","table_unsafe.go"])
p("C14","Insert rejects a primary key that occurs twice in one call",
  "Insert of a row list in which two rows have the same primary key returns an error and changes nothing, whatever the length of the list.",
  "all row lists with a repeated key",
  "only fails across internal chunk boundaries of 5000 rows",
  ["table.go:Insert","table.go:batched","table.go:keyDuplicate"])
p("C15","Update replaces exactly the given rows",
  "Update of rows that are all present returns no error; afterwards each given row is stored in place of the old version, every secondary index points to the new version and no longer to the old one, and all other rows are unchanged. If some row is missing it returns an error.",
  "all tables, contents, row lists of any length",
  "unbounded states and inputs",
  ["table.go:Update","index.go:OnUpdate"])
p("C16","Upsert inserts or merges each row",
  "Upsert of rows with pairwise distinct keys stores onConflict(old, new) for each key that was present and new for each key that was absent, with indexes following, and changes nothing else.",
  "all tables, contents, row lists of any length, all key-preserving onConflict functions",
  "unbounded states and inputs",
  ["table.go:Upsert"])
p("C17","Upsert folds repeated keys of one call through onConflict",
  "If the same primary key occurs several times in one Upsert call, the stored row is the fold of onConflict over the stored row and the given rows of that key, a row is stored only under its own primary key, and the indexes reflect the final row.",
  "all row lists with repeats",
  "depends on the permutation between input order and key order",
  ["table.go:Upsert","table.go:sortKeys"])
p("C18","Delete removes the row and all its index entries",
  "Delete of given rows removes each stored row with that primary key and all of its index entries; other rows and entries are unchanged; deleting absent rows is a no-op.",
  "all tables, contents, row lists",
  "unbounded states and inputs",
  ["table.go:Delete","index.go:OnDelete"])
p("C19","Secondary indexes stay exact over every history",
  "After any sequence of Insert, Update, Upsert and Delete calls, successful or failed, starting from an empty table, each secondary index contains exactly one entry for each stored row accepted by the index filter and no other entry.",
  "all operation sequences, all index sets including filtered and ordered indexes",
  "unbounded histories",
  ["table.go","index.go"])
p("C20","Reads return the latest write",
  "After any sequence of write calls, successful or failed, each giving pairwise distinct primary keys (see C14, C15, C17 for repeated ones), GetPoint, Get(point) and Exist report for each primary key exactly the row last written and not deleted, or not-found; a Delete needs only the right primary key.",
  "all histories, all keys",
  "unbounded histories",
  ["table.go:Get","table.go:GetPoint","table.go:Exist"])
p("C21","Multi-point Get is positional",
  "Get with a points selector returns a list of the same length as the points, whose i-th element is the stored row with the i-th point's primary key or the nil value when absent, for any order and repetition of points.",
  "all point lists, contents, sort tie-breakings",
  "all permutations and repetitions",
  ["table.go:get","table.go:sortKeys","table.go:reorderValues"])
p("C22","A full scan returns every row once, in primary key order",
  "Scan returns every stored row exactly once in ascending primary-key byte order and, with reverse, in exactly the opposite order; a point selector on the primary index returns the rows from that key on.",
  "all contents",
  "unbounded contents",
  ["table.go:Scan","table.go:scanForEachPrimaryIndex","index.go:Iter"])
p("C23","A point selector on a secondary index returns exactly the matching rows",
  "ScanIndex with a point selector returns exactly the stored rows accepted by the index filter whose index key equals the selector's and whose (order part, primary key) is at or after the selector's, in that order, each once.",
  "all contents, selectors, indexes",
  "the failing index keys are those whose last byte is 0xFF",
  ["index.go:Iter","table.go:scanForEachSecondaryIndex","table.go:keySuccessor"])
p("C24","Range selectors are inclusive on both ends and nothing more",
  "A range selector (low, high) selects exactly the rows whose position in the index is between that of low and that of high, both included.",
  "all contents, bounds, indexes",
  "the failing upper bounds are those whose last byte is 0xFF",
  ["index.go:Iter","selector.go:SelectorRange"])
p("C25","Multi selectors concatenate, and reverse mirrors",
  "A points or ranges selector visits the selections of its elements one after another in the given order, skipping empty ones; iterating in reverse visits exactly the mirrored sequence. An empty points/ranges selector selects nothing.",
  "all lists of bounds, all contents, both directions",
  "unbounded lists with empty gaps in arbitrary places",
  ["iter.go:_iteratorMulti","index.go:Iter"])
p("C26","Index scans call back once per row with the right record",
  "ScanIndexForEach calls the callback exactly once for each selected index entry in order until the callback stops it, and Lazy.Get returns the row of that entry, whatever the prefetch size and whichever rows the callback chooses to load.",
  "all contents, prefetch sizes, callbacks",
  "callbacks are arbitrary programs; prefetch boundaries are arbitrary",
  ["table.go:scanForEachSecondaryIndex","lazy.go"])
p("C27","Filter, offset and limit behave like list operations",
  "A query without Order returns take(limit, drop(offset, filter(rows))) of the rows selected by its index selector (limit 0 = unlimited), loading no more rows than necessary.",
  "all contents, filters, offsets, limits",
  "unbounded; arithmetic on offset+limit can overflow",
  ["query.go:executeQuery"])
p("C28","Order sorts all selected rows before offset and limit",
  "A query with Order returns take(limit, drop(offset, s)) where s is the selected and filtered rows sorted by the given less function; After drops everything up to and including the given row.",
  "all contents, less functions (strict weak orders), offsets, limits, any (unstable) sort",
  "unbounded",
  ["query.go:executeQuery"])
p("C29","Paging with After enumerates every row exactly once",
  "Running a query with Limit(n) repeatedly, each time with After(last row of the previous page), returns pages whose concatenation is exactly the unpaged result.",
  "all contents, page sizes, number of pages, index selectors, directions",
  "unbounded iteration; fails in specific selector/direction combinations",
  ["query.go:executeQuery","query.go:selectorWithAfter"])
p("C30","Intersects returns exactly the rows selected by all parts",
  "A query with Intersects returns, in primary-key order, exactly the rows selected by every participating index selector and accepted by the filter, each once, with Order/After/Offset/Limit applied as for plain queries.",
  "all contents, selector lists",
  "unbounded",
  ["index.go:Intersect","query.go:executeIntersect"])
p("C31","Tables, user keys and system keys do not interfere",
  "A write call on one table leaves every key of every other table, every user-space key and the bond system keys unchanged, and its reads do not depend on them.",
  "all tables with different ids, all operations, all contents",
  "unbounded",
  ["table.go","keys.go:NewUserKey","version.go"])
p("C32","A read-write batch reads its own writes, and committing it equals doing the calls directly",
  "Calls given a read-write batch behave as if all earlier calls on that batch had been applied to the database, leave the database unchanged until Commit, and after Commit the database is the same as if the calls had been made directly.",
  "all sequences of calls on a batch",
  "unbounded histories",
  ["batch.go","table.go","bond.go:Batch"])
p("C33","A scan or get through any batch reports either the rows or an error",
  "Reading through a batch never silently returns an empty or not-found answer for rows that exist.",
  "both batch types, all contents",
  "depends on batch type and error path",
  ["iter.go:errIterator","table.go:scanForEachPrimaryIndex","batch.go:Get"])
p("C34","Batch callbacks follow the commit protocol",
  "OnCommit callbacks run in order before the write and can veto it; OnCommitted callbacks run exactly once and only after a successful commit; OnError callbacks run exactly on failure; OnClose callbacks run on Close; committing an empty batch runs none.",
  "all sequences of batch operations and callback registrations, all commit outcomes",
  "unbounded protocol histories",
  ["batch.go"])
p("C35","Generated sequence numbers are unique and increasing",
  "Successive NumberSequence.Next results that return no error are strictly increasing and pairwise distinct, their Timestamp is the generation second, and more than 2^24 numbers in one second is reported as an error rather than reusing a number.",
  "all call histories and all clock behaviours",
  "needs 2^24 calls in a second, or a clock step",
  ["helpers.go:NumberSequence"])
p("C36","ReIndex rebuilds an index exactly",
  "After ReIndex of some indexes succeeds, each of them contains exactly the entries of the stored rows accepted by its filter, whatever it contained before; rows and other indexes are unchanged; this holds for every index id and number of rows, and repeating it changes nothing.",
  "all contents, index ids 1..255, row counts",
  "unbounded; fails only for index id 255",
  ["table.go:ReIndex"])
p("C37","AddIndex with a duplicate id fails cleanly",
  "AddIndex that returns a duplicate-id error leaves the table usable and its index set unchanged.",
  "all index lists, all later operations",
  "the failure is a lock that is never released",
  ["table.go:AddIndex"])
p("C38","Concurrent calls on different rows do not disturb each other",
  "For any number of concurrent write calls whose primary-key sets are pairwise disjoint, every interleaving of their reads and commits gives each call the result it would have alone and leaves the database in the state of running them one after another in any order.",
  "all schedules of any number of calls",
  "exponentially many schedules",
  ["table.go:Insert","table.go:Update","table.go:Upsert"])
p("C39","Concurrent calls on the same row are serializable",
  "For any schedule of concurrent Insert/Update calls on the same row the result is that of some serial order; in particular two concurrent Inserts of one key do not both succeed and indexes stay exact.",
  "all schedules",
  "race between the existence check and the commit",
  ["table.go:Insert","table.go:Update"])
p("C40","Bloom filters have no false negatives",
  "After Add(k), MayContain(k) is true from then on, whatever other keys are added and whatever the number of buckets, hash functions and size.",
  "all histories of Add and Load, all keys",
  "unbounded histories",
  ["bloom/bloom_filter.go"])
p("C41","A saved filter loads back with no false negatives",
  "If Save completes and later Load succeeds on a filter of the same configuration, every key added before the Save is reported as possibly contained; a changed bucket count or a missing bucket makes Load fail instead of losing keys.",
  "all histories of Add/Save/Load/Clear, all crash points",
  "crash points and histories are unbounded",
  ["bloom/bloom_filter.go:Save","bloom/bloom_filter.go:Load","bloom/bloom_filter.go:Clear"])
p("C42","A filter restored after a crash covers every committed row",
  "For every crash point of a process that uses a filter, FilterInitialize in the next process yields a filter that reports every committed row as possibly contained, so no stored row becomes invisible and no duplicate insert is admitted.",
  "all histories and crash points",
  "needs a crash between an insert and the next Save",
  ["filter.go:FilterInitialize","bloom/bloom_filter.go","table.go:Exist"])
p("C43","Concurrent Adds are never lost",
  "For any interleaving of concurrent Add calls, every added key is reported by MayContain and is persisted by the next Save.",
  "all interleavings of the memory accesses of Add",
  "data race windows",
  ["bloom/bloom_filter.go:Add"])
p("C44","A correct filter never changes results",
  "For any filter without false negatives that covers the stored keys, every table operation returns the same result and leaves the same database as without a filter, and the filter keeps covering the stored keys.",
  "all histories, all filters with no false negatives",
  "unbounded histories",
  ["table.go","filter.go"])
p("C45","The file filter store deletes only the requested range and keeps keys apart",
  "FilterFSStorer.DeleteRange(start, end) removes exactly the entries with start <= key < end, and Set of one key does not affect Get of another key.",
  "all key sets and ranges",
  "unbounded",
  ["filters/filter_fs_storer.go"])
p("C46","Restore reproduces exactly the requested tables of a Dump",
  "Dump of tables D followed by Restore of tables R (R subset of D) into a database makes every row (and index entry, if requested) of the tables in R equal to the dumped snapshot, and touches no key of any table outside R, for every dump directory name.",
  "all contents, table sets, directory names, file split points",
  "fails for particular table ids and directory names",
  ["bond.go:Dump","bond.go:Restore","bond.go:iteratorToSST"])
p("C47","Index discovery finds exactly the indexes in use",
  "The index ids exported for a table are exactly the ids 1..255 under which the database holds at least one key of that table, in increasing order, each once.",
  "all database contents, all tables",
  "unbounded contents; boundary id 255",
  ["bond.go:getIndexIDS"])
p("C48","Open refuses a database of another format version, and migration survives crashes",
  "Open succeeds on a directory iff the recorded format version equals the requested one (or none is recorded), and never changes an existing record; after MigratePebbleFormatVersion(v), interrupted at any point, the database can still be opened with either the old or the new version.",
  "all directory states, versions, crash points",
  "crash points between file operations",
  ["bond.go:Open","bond.go:MigratePebbleFormatVersion","bond.go:PebbleFormatVersion"])
p("C49","A pooled buffer has one owner",
  "As long as callers return only buffers they obtained and do so at most once, no buffer is handed to two callers at the same time, and the pool keeps at most its configured number of preallocated items.",
  "all histories of Get/Put by any number of callers",
  "unbounded histories",
  ["utils/sync.go:PreAllocatedPool"])
p("C50","Building keys does not modify the caller's record",
  "Computing primary, index and order keys of a record leaves the record unchanged, so the same record gives the same keys every time.",
  "all records, field values, number and order of indexes",
  "aliasing between record and key builder",
  ["index.go:OrderBytes"])
p("C51","Key builders and queries can be extended independently",
  "Extending one KeyBuilder (or Query) value in two different ways gives two independent results.",
  "all buffer capacities and extension sequences",
  "depends on slice capacity",
  ["keys.go:putFieldID","query.go:Intersects"])
p("C52","Pooled serializers return exactly the current value's bytes",
  "SerializerWithCloseable returns the encoding of its argument and nothing else, whatever was serialized and released before.",
  "all call histories, pool behaviours",
  "needs reuse of a released buffer",
  ["serializers/msgp.go","serializers/msgp_gen.go"])
p("C53","Conditions form the expected boolean algebra",
  "And/Or/Not/Eq/Gt/Gte/Lt/Lte evaluate to the corresponding boolean combination for any nesting depth and any record, including empty And (true) and Or (false); a nil condition reached while evaluating panics, one behind a member that already settles And or Or is never reached.",
  "all condition trees and records",
  "unbounded nesting",
  ["cond/cond.go"])
p("C54","SyncBatch runs its functions one at a time",
  "For any number of goroutines and any schedule, the functions passed to SyncBatch.WithSync execute one at a time on the batch, each exactly once, and none waits forever once the others have returned.",
  "all schedules of any number of goroutines",
  "exponentially many schedules",
  ["sync.go"])
p("C55","Chunked processing visits every row once in order",
  "Splitting a row list into chunks visits consecutive non-empty pieces whose concatenation is the list, none longer than the chunk size, and stops at the first error.",
  "all list lengths, chunk sizes >= 1",
  "boundary arithmetic over all lengths",
  ["table.go:batched"])
p("C56","A type-erased scanner behaves like the scanner it wraps",
  "TableAnyScanner(s) yields the same rows, in the same order and through the same batch, as s.",
  "all contents, batches, callbacks",
  "an omitted argument is invisible to tests that do not use batches",
  ["table_utils.go:TableAnyScanner"])
p("C57","Update and Upsert treat each row of a call independently",
  "The index changes made for one row of an Update/Upsert call depend only on that row and its stored version, not on other rows of the call, for any serializer that restores a value into a fresh variable correctly.",
  "all row lists and serializers",
  "needs a serializer that leaves residue in a reused variable",
  ["table.go:Update","table.go:Upsert"])
p("C58","The unsafe variants equal the safe ones on valid input",
  "UnsafeInsert of rows whose primary keys are distinct and absent, and UnsafeUpdate of present rows given their stored versions, leave the same table content, indexes and filter coverage as Insert and Update would, and change nothing else.",
  "all tables, contents, row lists and chunkings",
  "all contents and row counts",
  ["table_unsafe.go:UnsafeInsert","table_unsafe.go:UnsafeUpdate"])
p("C59","Filters that share a store do not disturb each other",
  "Any number of operations on two filters that keep themselves in the same store give each filter the buckets and results it would have had alone, and never change rows or index entries of tables.",
  "all histories of Add/Save/Load/Clear on two filters, all configurations, interruptions",
  "needs two filters in one store and every interleaving of their operations",
  ["bloom/bloom_filter.go:NewBloomFilter","bloom/bloom_filter.go:Save","bloom/bloom_filter.go:Clear"])
p("C60","Rows and index entries can be told apart by their keys",
  "For every key a table writes, IsDataKey holds exactly for rows and IsIndexKey exactly for index entries, both on the encoded key bytes and on the decoded key.",
  "all table ids, index ids, index parts, order parts and primary keys",
  "all byte strings",
  ["keys.go:IsDataKey","keys.go:IsIndexKey","keys.go:KeyDecode"])
p("C61","Open checks the data version and marks a new database",
  "A successful Open leaves a database with the supported data version; Open of a database with any other data version fails; and Open changes no stored pair other than setting the data version where there was none.",
  "all database contents, versions, crash points",
  "all contents of the version record and all crash points",
  ["bond.go:Open","version.go:Version","version.go:initVersion"])
p("C62","A table holds only what was written through it",
  "Opening a database, and storing anything under user keys, never adds, removes or changes a row or index entry of a table, whatever its table id.",
  "all table ids, contents, user keys, crash points of Open",
  "all table ids and contents",
  ["bond.go:Open","version.go:bondDataVersionKey","keys.go:NewUserKey"])
p("C63","Crashes lose nothing that was reported as done and never tear rows from indexes",
  "After any history of write calls, batches and crashes, the rows and index entries are exactly those of the deeds that survived: every successful call made without a batch and every batch committed with Sync survives, a batch committed with NoSync survives completely or not at all, and not without the deeds of its process before it.",
  "all histories of calls, batches and crashes, all crash points and numbers of log entries that reach the disk, all tables",
  "all crash points of all histories",
  ["table.go:Insert","table.go:Update","table.go:Upsert","table.go:Delete","batch.go:Commit","bond.go:pebbleWriteOptions"])
p("C64","Paging with After through a table that changes between the pages",
  "If the table is changed arbitrarily between the pages of a query paged with Limit and After, no row is returned twice, every row returned is one the query asks for when its page is run, every row that the query asks for throughout is returned, and paging ends once no new rows come.",
  "all histories of contents between the pages, all queries, page sizes and tables",
  "all interleavings of pages and writes",
  ["query.go:After","query.go:executeQuery","query.go:selectorWithAfter"])
p("C65","Index scans while rows are written",
  "A scan of an index that runs while other calls commit returns every selected row nobody wrote meanwhile, returns no primary key twice and only rows that were stored at some moment; it shows the table of one moment, and does not fail because a row was deleted.",
  "all tables, indexes, selectors, directions, and all histories of commits between the reads of a scan",
  "all interleavings of a scan's reads and commits",
  ["table.go:ScanIndex","table.go:ScanIndexForEach","table.go:scanForEachSecondaryIndex","table.go:get"])
p("C66","Building an index while other calls write",
  "If AddIndex or ReIndex runs while other calls commit, it succeeds, disturbs nothing outside the indexes it builds, and afterwards these indexes hold exactly the entries of the rows in the table.",
  "all tables, indexes, contents, and all batches committed between any two steps of the call",
  "all interleavings of the steps of ReIndex and commits",
  ["table.go:AddIndex", "table.go:ReIndex", "table.go:Insert", "table.go:Update", "table.go:Delete"])
p("C67","The inspector's queries show the rows that meet them",
  "A query of the inspector, given by names of a table and an index and by maps of field values, shows exactly the rows of the table that lie on the index from the selector on, meet the filter field by field and come after the given row, in the order of the index, cut at the limit. Names that do not exist give an error. Paging with After shows each such row once.",
  "all tables, record types, stored rows, indexes, requests with any field values and limits",
  "requests carry values of any Go type, which reflection converts to the types of the fields; tests use a few values that fit, on a few rows",
  ["inspect/inspect.go: Query, findTableAndIndexInfo, setFields, Tables, Indexes, EntryFields", "utils/reflect.go: MakeValue", "table.go: Name, Indexes, EntryType, SelectorPointType"])
p("C68","The remote inspector shows what the inspector shows",
  "A query of the remote inspector, whose request and answer are sent as JSON, shows the rows the inspector at the other end would show for the same request, with the same values; paging with the rows received shows each row once and ends.",
  "all tables, record types, stored rows, requests with any field values",
  "every number becomes a float64 on the way there and back; tests use small numbers",
  ["inspect/inspect_handler.go: buildQueryHandler", "inspect/inspect_handler_client.go: Query", "inspect/inspect.go: Query"])
p("C69","Calls release what they open",
  "A call of the API closes every iterator, batch, value, file, snapshot and lock it opens exactly once, whether it succeeds, fails or the caller's code panics, uses none of them after closing it, and never closes a batch the caller gave it.",
  "every run of the modelled functions: every choice of conditions and errors, every number of loop rounds, every place where user code panics",
  "A leak on one error path or panic of a callback shows only as an error of Close, a lock held for ever or memory growing much later; tests take few of the paths.",
  ["table.go:Insert", "table.go:Update", "table.go:Upsert", "table.go:Delete", "table.go:Exist", "table.go:Get", "table.go:ScanIndexForEach", "table.go:ReIndex", "table.go:AddIndex", "table_unsafe.go:UnsafeUpdate", "table_unsafe.go:UnsafeInsert", "index.go:Intersect", "iter.go:_iteratorMulti", "bond.go:Open", "bond.go:Dump", "bond.go:getIndexIDS", "bond.go:iteratorToSST", "bond.go:MigratePebbleFormatVersion", "version.go:Version", "bloom/bloom_filter.go:Load", "bloom/bloom_filter.go:Save"])
p("C70","Calls that share pooled buffers do not disturb each other",
  "Every Insert, Update, Upsert, Delete, UnsafeInsert, UnsafeUpdate, Exist and Get has the outcome it would have if each key and value had memory of its own, although the keys and values are built in buffers taken from pools that other goroutines share; it never changes memory it did not take, and the buffers it gives back overlap nowhere.",
  "all tables, rows, batches, buffer sizes and growth, and everything other goroutines do between any two steps of the call to memory the call does not hold",
  "An aliasing mistake shows only when a buffer is too small or large enough at the wrong moment, or when another goroutine gets the same memory in between; tests see few sizes and schedules.",
  ["table.go:Insert", "table.go:Update", "table.go:Upsert", "table.go:Delete", "table.go:Exist", "table.go:Get", "table.go:keysExternal", "table.go:sortKeys", "table_unsafe.go:UnsafeUpdate", "table_unsafe.go:UnsafeInsert", "index.go:OnInsert", "index.go:OnUpdate", "index.go:OnDelete", "keys.go:KeyEncodeRaw", "bond.go:getKeyBufferPool", "bond.go:getMultiKeyBuffer"])
p("C71","Scans and queries share pooled buffers without disturbing each other or the keys they hand out",
  "ScanIndex, ScanForEach, ScanIndexForEach, the scan that fills a filter, and queries, with Intersects or without, take the buffers for bounds, keys and values from pools that all goroutines share, and hand the callback a slice of the iterator's own memory. They give the rows and errors they would give if every key and value had memory of its own, whatever other goroutines do to memory that this call does not hold, and the buffers they give back overlap nowhere.",
  "every table and index whose key functions append, every selector, direction, batch and callback that looks at its key during the call and before Get, all buffers and capacities, every growth of memory, everything other goroutines write between two steps",
  "The outcome depends on which buffers the pools hand out, on their capacities, on how append grows them and on what other goroutines write meanwhile.",
  ["table.go:Table.ScanIndexForEach", "table.go:Table.scanForEachSecondaryIndex", "table.go:Table.scanForEachPrimaryIndex", "index.go:Index.Iter", "iter.go:_iteratorMulti", "query.go:Query.executeQuery", "query.go:Query.executeIntersect", "index.go:Index.Intersect", "utils/unsafe.go:StringToBytes", "filter.go:FilterInitialize"])
p("C72","A database with several tables behaves like a set of independent abstract tables",
  "Open a database and use any number of tables with different ids and rows of any types, together with keys of the user's own that start with no table's id. Run any sequence of Insert, Update, Upsert, Delete, Get, Exist, Get of points, index scans, queries (with filter, order, offset, limit, after and intersections), AddIndex with reindexing, Set, Delete and Get of own keys, directly or through a read-write batch that is begun, committed or closed. Every answer is the one an abstract database gives: one map from primary key to row per table and one map for the own keys. Calls on one table never affect another table or the own keys; a failed direct call changes nothing; a batch sees its writes over the committed content, direct readers see none of them before the commit, and all of them after it; a closed batch or a failed commit leaves nothing.",
  "all sets of tables, all row types, all sequences of calls of any length, all arguments that satisfy the per-call provisos of the other claims (distinct primary keys in one call, rows whose index entries fit, deleted rows with the stored index entries, exact selectors), all choices of which commits fail; no direct write while a batch is open",
  "The interference of tables, batches, filters and index maintenance shows only in long mixed histories; tests run a handful of fixed ones over one table.",
  ["table.go: Insert, Update, Upsert, Delete, Get, Exist, ScanIndex, AddIndex, ReIndex", "query.go: Execute", "batch.go: Commit, Close", "bond.go: Get, Set, Delete, Batch", "keys.go: KeyEncodeRaw"])
p("C73","A filter can be initialised in the background while the table is in use",
  "A table whose filter is a FilterInitializable can be written and read while Initialize is running in another goroutine: every call returns what it would return without a filter, no written row becomes invisible once Initialize returns and the filter is switched on, and the filter is switched on exactly when Initialize succeeds.",
  "all tables and records, all sets of concurrent Insert/Update/Upsert/Delete calls, all interleavings of their steps with those of Initialize (load, clear, opening the scan, each Add, the flag), all histories of the filter's store, all other scanners",
  "a row is lost only if a write falls between the right two steps of the initialisation; tests run a handful of interleavings",
  ["filter.go:24-46 FilterInitializable", "filter.go:56-75 FilterInitialize", "table.go:338-789", "table_utils.go:77-85", "bloom/bloom_filter.go:79-136"])
p("C74","A dump that was interrupted is never restored as if it were complete",
  "However the goroutines of Dump interleave, a Dump that returns without an error has written the same directory as one that writes table after table. If the process dies in the middle of Dump, Restore from the directory fails and changes nothing; it never restores wrong values or keys that were not asked for.",
  "all schedules of the goroutines of Dump, all points of interruption, all snapshots, all concurrent changes of the database, all tables asked for in Dump and Restore, all file sizes",
  "an interruption hits one of unboundedly many points between the steps of several goroutines; a test can hardly stop a process there",
  ["bond.go:378-439 Dump", "bond.go:525-558 iteratorToSST", "bond.go:441-499 Restore"])
p("C75","Any number of batches and direct writes side by side behave like sets of changes to an abstract database",
  "Any number of read-write batches can be open at once, with direct writes between their calls. A call in a batch acts on the batch's own changes over whatever is committed at that moment, no other call sees those changes, a commit makes exactly those changes whatever was committed in between, and applying one batch to another adds its changes.",
  "all tables, all interleavings of calls made directly and in any number of open batches, all rows and keys, all contents of the database",
  "the interleavings of several open batches with direct writes are unbounded, and the entries a batch has computed from old rows are only used at its commit",
  ["bond.go:242-297", "batch.go:58-163", "table.go:338-789", "index.go:280-353"])
p("C76","An inspector asked over HTTP answers as it does locally, or fails as a whole",
  "A client of NewInspectRemote answers Tables, Indexes, EntryFields and Query exactly as the inspector behind NewInspectHandler does, names and values going through JSON, or every one of its calls returns an error; which of the two depends only on its URL and headers.",
  "all tables and their contents, all base URLs and headers, all table names and query requests",
  "URLs, headers, names and requests are unbounded, and a test uses one URL and one table",
  ["inspect/inspect_handler.go:10-246", "inspect/inspect_handler_client.go:24-177"])
p("C77","bond-cli prints what the inspector answers, and its dump and restore move the tables",
  "Each inspect command of bond-cli prints the answer of the inspector at its URL, asked with the given headers and the request the flags describe, or an error and nothing else. bond-cli dump followed by bond-cli restore gives the second database the wanted tables of the first and changes nothing else, and the exit status tells whether a command failed.",
  "all URLs, headers, commands and flags, all inspectors behind the URL, all databases and lists of table ids",
  "command lines and databases are unbounded, and the command line tool has no tests at all",
  ["inspect/inspect_cli.go:72-245", "cmd/bond-cli/bond-cli.go:11-25", "cmd/bond-cli/dump.go:32-56", "cmd/bond-cli/restore.go:8-31"])
p("C78","A database keeps its content from process to process, however they end",
  "A program that opens a database sees exactly what the programs before it left: all calls that returned before a Close, those of the OnClose callbacks included; after a crash all calls but a suffix of unsynced ones, no part of an open batch, and no visible effect of an AddIndex that was interrupted. Opening it succeeds whatever happened before, and neither opening nor migrating it changes any row or any of the user's keys.",
  "all sequences of processes, each with any declared tables, any calls, any callbacks, any way to end and any crash point, and all migrations between them",
  "a test runs one process; the claim is about every history of processes and every point at which one of them can be killed",
  ["bond.go:138-232", "bond.go:309-322", "bond.go:584-608", "table.go:248-336"])
p("C79","An intersecting query while other goroutines write the table",
  "A query with Intersects that runs while rows are written returns each primary key at most once, only rows that are stored when it fetches them, and every row nobody wrote meanwhile exactly if all parts and the filter want it; it answers as it would have at one moment.",
  "all tables, queries with any number of parts, single and multi selectors, all sequences of table contents and all choices of the moment each pebble iterator sees",
  "the answer depends on which of the many iterators of one query fall before or after each write; a test sees a handful of schedules",
  ["query.go:282-391", "index.go:355-403", "iter.go:80-147"])
p("C80","A query while other goroutines write the table",
  "A query without Intersects that runs while rows are written returns only rows stored at some moment that pass the filter, at most as many as its limit, and, without offset, limit and after, every row nobody wrote meanwhile exactly if selector and filter want it; its rows come in index order and it fails only if a row it needs is gone.",
  "all tables, indexes, selectors, filters, orders, offsets and limits below 2^63, both directions, all sequences of table contents and all choices of the moments that each iterator and each fetched block see",
  "the answer depends on which iterators and blocks of one query fall before or after each write; a test sees a handful of schedules",
  ["query.go:155-280", "table.go:1027-1194", "iter.go:80-147"])
p("C81","Contexts: the batch they carry and what cancelling them does",
  "A context derived from Background carries the batch and the sync batch given to it last, whatever else is stored in it. A write, scan or query whose context is cancelled at any time either returns the context's error or behaves exactly as if it had never been cancelled, so it never returns a part of its answer without an error; if the context was cancelled before the call, the call returns the context's error and changes nothing.",
  "all programs deriving contexts, all tables, database contents, batches, rows, selectors, callbacks, queries and all moments of cancellation",
  "the moment at which a context is cancelled ranges over every ctx check of a call over any number of rows; a test cancels at one of them",
  ["context.go:7-30", "table.go:338-789", "table.go:1019-1194", "table_unsafe.go:20-203", "index.go:355-403", "query.go:131-391"])
p("C82","Any request to the HTTP inspector is answered as documented by its path and body",
  "The inspector's HTTP handler answers every request, also one that its own client did not write: 404 if the path ends in none of /tables, /indexes, /entryFields, /query; 406 if the Accept header asks for something other than JSON; 500 with a JSON error if the body cannot be read or the inspector returns an error; otherwise 200 with what the inspector answers for the table or the query the body describes. Names of fields in the body may be spelled in capital letters, unknown ones are ignored, missing ones and null count as empty.",
  "all paths, Accept headers and JSON bodies, all tables and their answers",
  "requests are texts of any shape; a test sends a handful through the client of the package, which uses the same constants as the handler",
  ["inspect/inspect_handler.go:10-246"])
p("C83","An iterator acts as a cursor on the rows of its selector, whatever is called",
  "The iterators that Index.Iter, Table.Iter, DB.Iter and Batch.Iter return act as a cursor on the entries they cover: First, Last, Next, Prev, SeekGE and SeekLT move it to the entry their names say and return whether it is on one; Valid, Key and Value show that entry; Error is nil. Moving past an end and back works from both ends. An iterator that could not be opened returns false from every call and keeps its error.",
  "all tables, contents, indexes, selectors, batches, bounds and seek keys, and all sequences of calls",
  "sequences of calls mixing directions and seeks are unbounded; the bugs of an iterator over several intervals show only at particular seams",
  ["iter.go:13-252", "index.go:176-279", "table.go:992-994", "bond.go:275-281", "batch.go:110-112"])
p("C84","Reads return stored rows only, after any history of calls",
  "After any history of Insert, Update, Upsert and Delete calls, given any rows, repeated keys, outdated records to delete, any onConflict, and with calls that fail or are cancelled, scans and queries give their callers only rows that are stored and that the filter accepts, whichever index, selector, order, After, offset, limit and Intersects they use; and those that use the primary index return exactly the stored rows selected.",
  "all tables and serializers, all histories of calls and their arguments, all contents of the indexes, all callbacks, selectors and queries",
  "the histories that leave wrong index entries depend on the chunk size and on how often a key is repeated, and what a read then meets depends on where its prefetch windows fall",
  ["table.go:338-789", "table.go:848-1194", "query.go:155-473", "index.go:176-403"])
p("C85","A call that fails leaves nothing in the batch it was given",
  "An Insert, Update, Upsert or Delete that is given a read-write batch and returns an error, because a row is or is not there, cannot be serialized, or the context ends, leaves the batch as it was, so that committing the batch stores nothing of that call, and rows, index entries and filter agree.",
  "all tables, serializers and filters, all batches and what they hold, all histories of calls with a batch and which of them fail where, all chunk sizes and cancellations",
  "what is left of a call depends on the row it fails at, on the chunk that row is in and on the order of the keys in it; it shows only after the batch is committed",
  ["table.go:338-789", "batch.go:58-152"])
p("C86","The error of a write call tells the first row at fault, and chance has no part in the answer",
  "An Insert, Update, Upsert or Delete without a batch, or with a read-write one, goes through its rows in the one order given by their keys and the size of a chunk, and returns the error of the first row that is there already, is missing or cannot be serialized, or at which the context has ended; without such a row it succeeds. The answer and what is stored depend on nothing else, not on the order of Go's maps nor on how the keys are sorted.",
  "all tables, serializers and filters, all databases and batches, all calls and rows, all chunk sizes, cancellations, map orders and sorts",
  "which row is named depends on every earlier row and on chunk boundaries, and map orders and ties of the sort differ from run to run",
  ["table.go:338-789", "table.go:1196-1209", "table.go:1278-1297"])
p("C87","A read error of the storage is reported, never mistaken for missing rows",
  "If the storage cannot be read while a call runs, the call returns an error. It does not return fewer rows than are stored, report a stored row as missing, overwrite it, or build an index or a dump without it.",
  "all tables, databases, batches, selectors, callbacks and rows, and all sets of reads that fail",
  "a test would have to make each single read of the storage fail in turn, in every state",
  ["iter.go:43-49", "iter.go:89-147", "iter.go:202-252", "table.go:265-336", "table.go:389-401", "table.go:529", "table.go:818-834", "table.go:857-990", "table.go:1027-1194", "bond.go:525-558"])
p("C88","A query returns an error when the storage cannot be read, not fewer rows",
  "If the storage cannot be read while a query runs, the query returns an error. If it returns no error, its rows are those it would have returned had all reads worked, with or without filter, order, after, offset, limit and intersected queries.",
  "all tables, databases, batches and queries, and all sets of reads that fail",
  "a test would have to make each single read of the storage fail in turn, for every query and state",
  ["query.go:131-391", "index.go:355-403", "iter.go:43-49", "iter.go:89-147", "table.go:941-990", "table.go:1019-1194"])
p("C89","Pebble's comparer can split every key that bond stores",
  "Whatever is written through tables, batches, ReIndex, NewUserKey, stored filters, Open and Restore, every key in the database, and every key that a table call sets or deletes, can be split by the comparer that bond gives to pebble, and on such keys the comparer keeps pebble's Split contract. On no key of the database does Split panic.",
  "all databases reached by any sequence of calls on any tables, batches, ReIndex runs, filter saves, opens and restores, stopped anywhere",
  "pebble splits keys in the background, when it flushes and compacts, so one bad key in any history makes the process panic later, far from the call that stored it",
  ["keys.go:339-347 DefaultKeyComparer", "keys.go:155-163 NewUserKey", "bond.go:242-281", "bloom/bloom_filter.go:42-77", "bloom/bloom_filter.go:202-212", "table.go", "index.go", "version.go:26-42"])
p("C90","A filter's stored keys are its prefix and a number, and it writes to no memory of the caller",
  "A BloomFilter made with a key prefix of the caller stores and finds its buckets under exactly that prefix, in every sequence of Add, Save, Load, Clear and restarts of any number of filters over one store, wherever in memory the prefixes lie; and no call changes bytes of the caller.",
  "all memories and positions of the prefix slices, all growth policies of append, all stores, all sequences of calls of any number of filters, with saves stopped anywhere",
  "the effect depends on the capacity of the slice the caller happens to pass and on the order of calls of different filters; a test with literal prefixes never has spare capacity",
  ["bloom/bloom_filter.go:42-77 NewBloomFilter", "bloom/bloom_filter.go:93-194 Load, Save, Clear", "bloom/bloom_filter.go:202-212 buildKey, buildBucketNumKey"])
p("C91","A write call that is repeated until it is answered takes effect once",
  "However often the same Insert, Update, Delete or Upsert is made, with tries that are cancelled, fail, succeed, or are cut short by the death of the process before or after their commit, the database holds either what it held before or exactly what one successful call leaves, and the latter once any try was told success. A final undisturbed try brings it to what one call leaves; it is told success, or for Insert that the key exists if an earlier try took effect.",
  "all tables, databases, calls and sequences of tries, each try cancelled or cut short anywhere, with any filter after a restart",
  "whether a call took effect is unknown after a crash or a lost answer; a test repeats calls only after known outcomes",
  ["table.go:338-450 Insert", "table.go:452-575 Update", "table.go:577-635 Delete", "table.go:637-789 Upsert"])
p("C92","The order of the rows of a call, how rows are divided into calls, and the order of calls on different rows do not matter",
  "An Insert, Update, Upsert or Delete whose rows are given in another order succeeds or fails alike and leaves the same database, key by key. It succeeds exactly if the call with the first part of its rows succeeds and then the call with the rest, and both ways leave the same database. Two calls on rows with different keys answer alike and leave the same database in either order.",
  "all tables, databases, calls, permutations and divisions of their rows, and pairs of calls without a common key; all sorts and orders of maps",
  "a test fixes one order of a few rows; agreement is a statement about all pairs of orders and about the whole stored database",
  ["table.go:338-450 Insert", "table.go:452-575 Update", "table.go:577-635 Delete", "table.go:637-789 Upsert"])
p("C93","Close runs every OnClose function once, in order, on the open database, and then closes; Compact reaches every key",
  "Close calls each function registered with OnClose exactly once, in the order of registration, while the database can still be read and written, each seeing the writes of the ones before it; then the database is closed. A function registered meanwhile is kept and not run. A second Close changes no data and panics. Compact covers the keys of all tables and indexes.",
  "all numbers and kinds of functions, each deciding by the content it finds; all keys",
  "the functions are arbitrary code that calls back into the database; a test registers one or two",
  ["bond.go:298-307 Compact", "bond.go:309-312 Close", "bond.go:314-322 OnClose, notifyOnClose"])
p("C94","The stored database does not tell how its rows came about",
  "Two histories of write calls on the same database, failed and cancelled calls included, after which every Get answers the same leave the same database, byte by byte: index entries do not depend on the way. In particular Insert then Delete of the same rows, Delete then Insert, and Update then Update back leave the database as it was, and an Update with the stored rows changes nothing. An index added with reindexing after any history is as if it had been there from the beginning.",
  "all tables, databases and pairs of histories; all rows",
  "leftovers of a history are visible only in index areas that the test does not scan, and there are unboundedly many ways to the same rows",
  ["table.go:338-450 Insert", "table.go:452-575 Update", "table.go:577-635 Delete", "table.go:637-789 Upsert", "table.go:836-846 GetPoint"])
p("C95","A table that was dumped and restored into another database answers as it did",
  "Dump of tables while other calls write, and Restore into a database without these tables: each restored table holds the rows that the source had when the dump began, its indexes are exact, and every Get answers as it did then. With the indexes left out of the dump, AddIndex with reIndex on the restored table gives the same table. Nothing else in the target changes.",
  "all tables with any rows and indexes; all lists of tables, sizes of files and writes during the dump; all targets without the table",
  "the rows, the division into files and the writes that fall into the dump are unbounded, and a wrong index entry shows only in the query that meets it",
  ["bond.go:378-439 Dump", "bond.go:441-499 Restore", "table.go:237-263 AddIndex", "table.go:265-336 ReIndex", "table.go:836-846 GetPoint"])
p("C96","Pages by Offset and Limit make up the result",
  "A query run with Offset 0, n, 2n, ... and Limit n on a table that does not change returns, page after page, the first rows of the query without Offset and Limit, in its order, and enough pages return all of them, none twice and none left out; with Filter, Order, Reverse and any selector.",
  "all tables, rows, indexes, selectors, filters and orders; all page sizes and numbers of pages",
  "every page is an own query that stops at an own row, and the numbers of rows, of pages and of rows per page are unbounded",
  ["query.go:102-121 Offset, Limit", "query.go:155-391 Execute", "table.go:1061-1194 ScanIndexForEach"])
p("C97","Upsert stands for Insert and Update, and Update for Delete and Insert",
  "Where Insert of rows succeeds, Upsert of the same rows succeeds and leaves the same database, whatever onConflict does. Where Update succeeds, Upsert with an onConflict that replaces does the same, and so do Delete of the stored rows and Insert of the new ones. The databases are the same in every byte, index entries included.",
  "all tables, databases and lists of rows with distinct keys; all onConflict functions that keep the key",
  "the ways differ in what they read and in the index entries they write and remove one by one, for unboundedly many rows, indexes and divisions into chunks",
  ["table.go:338-450 Insert", "table.go:452-575 Update", "table.go:577-635 Delete", "table.go:637-789 Upsert"])
p("C98","The rows of an ordered query do not depend on the index",
  "Two queries that ask for the same stored rows through different indexes, one perhaps with a filter where the other uses the index or Intersects, with the same Offset, Limit and After and the same Order, give the same rows in the same order, if the Order tells stored rows apart. With ties in the Order they need not, and with a Limit even the rows can be others.",
  "all tables, databases, indexes, selectors, filters, orders and stored rows",
  "an index reads other keys in another order, in unboundedly many batches, and the sort gets the rows in that order; a test compares a few lists",
  ["query.go:155-391 Execute", "index.go:176-279 Iter", "index.go:355-403 Intersect", "table.go:1000-1194 ScanIndexForEach"])
p("C99","A filter in a query is a filter on its result",
  "Adding a condition to the filter of a query gives the rows that filtering the result of the query without it gives, in the same order; Offset and Limit count the rows the filter accepts. So for queries over any index and selector, with Reverse, with an Order that tells rows apart, and with Intersects.",
  "all tables, databases, indexes, selectors, conditions, offsets and limits",
  "the condition is asked inside the scan, before or after sorting and counting depending on the query, for unboundedly many rows and any function",
  ["query.go:82-85 Filter", "query.go:155-280 executeQuery", "query.go:282-391 executeIntersect"])
p("C100","The order and number of the parts of an intersecting query do not matter",
  "Two queries with Intersects that combine the same pairs of an index and a selector, whichever of them is the query itself and which are in Intersects, in any order and any number of times, with the same Filter, Order, Offset, Limit and After, have the same outcome: the same rows in the same order, or the same error, also through a batch that has changed rows.",
  "all tables, databases, batches, indexes, selectors and numbers of parts; all filters and less functions, whatever the sort does with ties",
  "the parts are read in turn into sets of keys, unboundedly many, and the number of parts and their orders are unbounded too",
  ["query.go:150-153 Intersects", "query.go:282-391 executeIntersect", "index.go:355-403 Intersect"])
if __name__=="__main__":
    for x in P: print(json.dumps(x))
