{"id": "C01", "title": "Reported durable sequence numbers are really durable", "statement": "Whenever the server answers a sync message with durable sequence number n for an origin, every row carried by every message of every transaction of that origin up to and including the one that carried n has already been committed to its target table, so the replicator may forget it.", "quantifier": "all finite histories of sync messages (any origins, targets, sizes, transaction boundaries), flush attempts that succeed or fail at any point, and clock readings", "why_tests_cant": "the bug would need a particular interleaving of origins, partially flushed transactions and failed flushes; histories are unbounded", "anchors": ["src/sync/writer.rs: enqueue_sync, flush_syncs, remove_tx_locations, advance_durable, stored_sequences"]}
{"id": "C02", "title": "Durable sequence numbers never run ahead of memory sequence numbers and never go back", "statement": "In every reply, the durable sequence number of an origin is one that the origin has itself sent before, and it was sent no later than the memory sequence number in the same reply; for an origin that sends non-decreasing sequence numbers neither number ever decreases from one reply to the next.", "quantifier": "all histories of messages and flushes", "why_tests_cant": "order inversions show up only for particular interleavings of several origins and flushes", "anchors": ["src/sync/writer.rs: enqueue_sync, advance_durable, stored_sequences"]}
{"id": "C03", "title": "A rejected sync message changes nothing", "statement": "If a sync message is refused as invalid (wrong origin inside an open transaction, or an empty transaction), the pending data, the transaction bookkeeping and the reported sequence numbers are exactly as if it had never been sent; a probe (no rows, no sequence) never changes anything either.", "quantifier": "all reachable server states and all messages", "why_tests_cant": "state-dependent: needs every reachable state", "anchors": ["src/sync/writer.rs: enqueue_sync", "src/frontend/flight/handler.rs: process_sync_cmd"]}
{"id": "C04", "title": "Pending size accounting is exact", "statement": "At every moment the tracked number of pending bytes equals the sum over the pending changes of every target, per-target size and row counts are the sums over its items, and releasing a target never underflows; once every target has been flushed the tracked size is zero.", "quantifier": "all histories of messages, squashings and flushes", "why_tests_cant": "accounting drift accumulates over unbounded histories", "anchors": ["src/sync/writer.rs: enqueue_sync, physical_squashing, remove_sync"]}
{"id": "C05", "title": "After an accepted message the configured limits hold", "statement": "When processing of an accepted sync message returns without error, no pending target exceeds the configured number of pending items, none has waited past the configured lag at the time of the last check, and the total pending size is below the configured bound.", "quantifier": "all histories and all configurations", "why_tests_cant": "depends on loop termination and on all orders of draining targets", "anchors": ["src/sync/writer.rs: flush, flush_ready"]}
{"id": "C06", "title": "The sync service never panics on bookkeeping", "statement": "No reachable sequence of messages and flushes makes the transaction or pending-target bookkeeping hit a missing entry (which would panic and poison the service).", "quantifier": "all histories of messages and flushes, including failed flushes", "why_tests_cant": "the panic requires an inconsistent combination of maps reached by some history", "anchors": ["src/sync/writer.rs: commit_info (indexing of txs), table_sequence, physical_squashing"]}
{"id": "C07", "title": "No pending change is lost, duplicated or reordered before it is flushed", "statement": "For every target table, the changes committed by successful flushes followed by the changes still pending are exactly the changes accepted for that target, in the order in which they were accepted; a failed flush loses nothing.", "quantifier": "all histories, with squashing taken as effect preserving", "why_tests_cant": "unbounded histories and failure points", "anchors": ["src/sync/writer.rs: enqueue_sync, flush_syncs, remove_sync"]}
{"id": "C08", "title": "A transaction fully written becomes durable", "statement": "As soon as a transaction and all transactions before it are complete and none of their rows is pending, the reported durable sequence number of its origin covers it (no further traffic is needed).", "quantifier": "all histories", "why_tests_cant": "liveness over unbounded histories", "anchors": ["src/sync/writer.rs: enqueue_sync, advance_durable"]}
{"id": "C09", "title": "The sequence recorded in a table never over-reports", "statement": "The sync commit info written together with a flush of a table never names a sequence number of a transaction some of whose rows for that table have not been included in that or an earlier commit; when the last pending transaction of the table is still open this is flagged.", "quantifier": "all histories and all flush points", "why_tests_cant": "requires all histories with several open/closed transactions per target", "anchors": ["src/sync/writer.rs: commit_info, table_sequence", "src/sync/mod.rs: SyncCommitInfo"]}
{"id": "C10", "title": "A flush request that reports an error has no partial effect on sequence numbers", "statement": "When flushing a target fails, the reported memory and durable sequence numbers and the pending data are unchanged, and retrying the flush after the cause has gone leaves the table as if the first attempt had never happened.", "quantifier": "all states and all failure points inside a flush", "why_tests_cant": "failure injection at every await point in every state", "anchors": ["src/sync/writer.rs: flush_syncs, physical_squashing"]}
{"id": "C11", "title": "In-memory squashing preserves the effect of the changes (at most one change-flag column)", "statement": "Replacing the pending change batches of a target by their squashed batch does not change the table that results from applying them, for change streams in which every update and delete refers to a row that exists and every insert to a key that does not.", "quantifier": "all change batches of all lengths, all primary keys (composite included), all value columns and at most one Changed column", "why_tests_cant": "chains of key changes of unbounded length and all interleavings of keys", "anchors": ["src/sync/utils.rs: squash_batches"]}
{"id": "C12", "title": "In-memory squashing keeps the change flags of every partially updated column", "statement": "For every target with any number of Changed columns, after squashing each column's flag says whether any of the squashed changes touched that column, and its value is the last value written to it.", "quantifier": "all change batches with any number of Changed columns", "why_tests_cant": "needs all column combinations", "anchors": ["src/sync/utils.rs: squash_batches"]}
{"id": "C13", "title": "Squashing emits one change per surviving row identity", "statement": "After squashing, no two emitted changes have the same old key, no two have the same new key, temporary rows (inserted and deleted in the batch) are not emitted, and a batch that cancels out entirely is accepted.", "quantifier": "all valid change streams", "why_tests_cant": "unbounded chains", "anchors": ["src/sync/utils.rs: squash_batches"]}
{"id": "C14", "title": "A flush has the effect of applying the pending changes one by one", "statement": "For a table with a single-column primary key, the committed table contents after a flush equal the previous contents with all pending inserts, updates (key-preserving or key-changing) and deletes applied one by one in the order received.", "quantifier": "all base tables, all sequences of batches of changes, all column values (full-row value columns)", "why_tests_cant": "joins over unbounded inputs; error needs particular combinations of key re-use across batches", "anchors": ["src/sync/planner.rs: plan_delta_syncs, squash_syncs, merge_syncs, join_syncs, union_syncs, normalize_syncs, apply_syncs"]}
{"id": "C15", "title": "Composite primary keys are replicated like single-column ones", "statement": "The effect of a flush equals one-by-one application also when the primary key has several columns, whichever of them an update changes.", "quantifier": "all key tuples and changes", "why_tests_cant": "needs all combinations of per-column key changes", "anchors": ["src/sync/planner.rs: normalize_syncs, join_syncs, apply_syncs"]}
{"id": "C16", "title": "Partial updates keep the values of unchanged columns", "statement": "When an update says that a column has not changed (Changed flag false), the stored value of this column in that row is preserved, also when the update changes the primary key or is merged with earlier pending changes of the same row.", "quantifier": "all base tables, keys and updates", "why_tests_cant": "depends on combinations of base row, key change and flag", "anchors": ["src/sync/planner.rs: apply_syncs, merge_syncs", "src/sync/schema/join.rs: join_changed, join_value"]}
{"id": "C17", "title": "Columns not mentioned by a sync are left alone", "statement": "A flush never alters a table column which the sync does not mention for rows that exist in the table, and never touches rows whose primary key occurs in no pending change.", "quantifier": "all tables and change batches", "why_tests_cant": "universally quantified frame property", "anchors": ["src/sync/planner.rs: apply_syncs"]}
{"id": "C18", "title": "Batches with different columns are not silently merged", "statement": "Two sync messages for the same target are combined into one batch only if they carry the same columns in the same roles; no column carried by an accepted message is dropped.", "quantifier": "all pairs of sync schemas", "why_tests_cant": "all schema pairs", "anchors": ["src/sync/schema/mod.rs: is_compatible_with", "src/sync/writer.rs: enqueue_sync"]}
{"id": "C19", "title": "File pruning never skips a file that a change touches", "statement": "Every data file of the target that contains a row whose primary key equals the old or the new key of some pending change is selected for rewriting, so no stale copy of a changed row survives.", "quantifier": "all files with correct min/max statistics (or missing statistics), all pending changes, any number of key columns, coarse and per-row pruning", "why_tests_cant": "min/max over unbounded data, nulls and missing stats", "anchors": ["src/sync/planner.rs: prune_partitions", "src/sync/utils.rs: construct_qualifier, get_prune_map"]}
{"id": "C20", "title": "Replaying changes after a restart converges", "statement": "If the server crashes and the replicator resends every change after the last durable sequence number, the table ends up as if every change had been applied exactly once, for changes that carry full rows.", "quantifier": "all histories, crash points and overlap lengths", "why_tests_cant": "crash points x overlap x history", "anchors": ["src/sync/writer.rs: enqueue_sync, flush_syncs", "src/sync/planner.rs: apply_syncs"]}
{"id": "C21", "title": "Sync schema validation", "statement": "A sync is accepted only if it has at least one old-key column, the old-key and new-key columns pair up by name, every change-flag column is boolean and accompanies a value column, and columns are otherwise usable; every accepted schema meets these conditions and every schema meeting them is accepted.", "quantifier": "all column lists", "why_tests_cant": "all column descriptors", "anchors": ["src/sync/schema/mod.rs: SyncSchema::try_new"]}
{"id": "C22", "title": "Cached range reads return the object's bytes", "statement": "For an object that does not change while it is cached, every range read that lies within the object returns exactly the bytes the underlying store would return, whatever was cached, evicted, expired or failed to be written to disk before.", "quantifier": "all objects, ranges, chunk sizes and all histories of reads, evictions, expirations, completed and failed cache writes", "why_tests_cant": "chunk arithmetic for all offsets in every cache state", "anchors": ["src/object_store/cache.rs: get_range, get_chunk_range, cache_chunk_data, on_evict"]}
{"id": "C23", "title": "A range read past the end of the object never corrupts the cache", "statement": "A read whose range extends past the end of the object does not make a later in-bounds read return wrong bytes, and does not panic.", "quantifier": "all objects and ranges", "why_tests_cant": "chunk boundary conditions", "anchors": ["src/object_store/cache.rs: get_chunk_range, get_range"]}
{"id": "C24", "title": "Reads after an overwrite or delete observe it", "statement": "After an object is overwritten or deleted through the store, a read through the cache no longer returns the previous contents.", "quantifier": "all histories of reads and writes", "why_tests_cant": "history dependent", "anchors": ["src/object_store/cache.rs: put_opts, delete, get_range"]}
{"id": "C25", "title": "A failed or partial cache file write is never served", "statement": "If writing a chunk to the cache directory fails or is interrupted at any byte, later reads still return the object's bytes.", "quantifier": "all crash/failure points of cache writes", "why_tests_cant": "failure at any byte", "anchors": ["src/object_store/cache.rs: CacheFileManager::write_file, cache_chunk_data"]}
{"id": "C26", "title": "Repartitioning on write loses no rows", "statement": "The rows of the data files written for a query, taken in file order, are exactly the query's rows in order; no file exceeds the configured maximum number of rows and every file but the last is full.", "quantifier": "all streams of batches of any sizes and every positive maximum partition size", "why_tests_cant": "all batch size combinations", "anchors": ["src/context/delta.rs: plan_to_delta_adds"]}
{"id": "C27", "title": "Writing terminates for every configured partition size", "statement": "Writing the results of a query terminates for every configured maximum partition size.", "quantifier": "all configurations", "why_tests_cant": "non-termination cannot be tested", "anchors": ["src/context/delta.rs: plan_to_delta_adds", "src/config/schema.rs: Misc"]}
{"id": "C28", "title": "Multipart upload preserves file contents", "statement": "The parts uploaded for a data file concatenate to the file's bytes, every part except the last has at least the minimum part size and no part is empty, for every way the file reads may be split; a read or upload failure never completes the upload.", "quantifier": "all files and all read splits, all failure points", "why_tests_cant": "all short-read schedules", "anchors": ["src/context/delta.rs: plan_to_delta_adds"]}
{"id": "C29", "title": "DELETE removes exactly the rows for which the predicate is true", "statement": "After DELETE ... WHERE p, the table contains exactly the previous rows for which p is not true (false or unknown), independently of how rows are distributed over files.", "quantifier": "all tables, file layouts and three-valued predicates", "why_tests_cant": "NULL semantics x file layout", "anchors": ["src/context/physical.rs: create_physical_plan (Delete)"]}
{"id": "C30", "title": "UPDATE changes exactly the selected rows", "statement": "After UPDATE ... SET ... WHERE p, the rows for which p is true have the assigned columns replaced by the values of the assignments evaluated on the old row (casts included), all other rows and columns are unchanged, and the number of rows is unchanged.", "quantifier": "all tables, file layouts, assignments and three-valued predicates", "why_tests_cant": "NULL semantics x file layout", "anchors": ["src/context/physical.rs: create_physical_plan (Update)", "src/provider.rs: project_expressions"]}
{"id": "C31", "title": "TRUNCATE and DELETE without predicate empty the table; table_versions lists every version", "statement": "Every statement that creates a new version of a table also makes that version visible in system.table_versions.", "quantifier": "all histories of DML statements and crash points", "why_tests_cant": "histories and crash points", "anchors": ["src/context/physical.rs: create_physical_plan (Truncate, Insert, Update, Delete)", "src/repository/default.rs: create_new_version"]}
{"id": "C32", "title": "Concurrent commits never overwrite each other", "statement": "Of two writers committing the same next version of a table, at most one succeeds and the other gets an error; no committed log entry is ever replaced.", "quantifier": "all interleavings of commit attempts on every supported object store configuration", "why_tests_cant": "race conditions", "anchors": ["src/object_store/wrapped.rs: put_opts, copy_if_not_exists, rename_if_not_exists"]}
{"id": "C33", "title": "Iceberg inserts are serializable", "statement": "Every INSERT into an Iceberg table that reports success is contained in every later version of the table; concurrent inserts either build on each other or one of them fails, and a version file is never overwritten.", "quantifier": "all interleavings of any number of concurrent inserts and crash points", "why_tests_cant": "interleavings", "anchors": ["src/context/iceberg.rs: record_batches_to_iceberg"]}
{"id": "C34", "title": "A crashed Iceberg insert does not block the table", "statement": "If the server crashes at any point of an INSERT into an Iceberg table, later inserts still succeed.", "quantifier": "all crash points", "why_tests_cant": "crash points", "anchors": ["src/context/iceberg.rs: record_batches_to_iceberg"]}
{"id": "C35", "title": "Access policy is enforced", "statement": "A request without a token is granted read (write) access exactly if the configured setting allows everyone; a request with a token exactly if the token is the configured one for that access, or the write token, or a configured token where the access is open to everyone. Disabled writing is granted to nobody; a wrong token is refused everything.", "quantifier": "all policies and all tokens", "why_tests_cant": "all combinations; hash inputs unbounded", "anchors": ["src/auth.rs: token_to_principal, can_perform_action", "src/frontend/http.rs: header_to_user_context"]}
{"id": "C36", "title": "A principal without write access cannot change anything over HTTP", "statement": "A POST query request by a principal without write access executes no statement that modifies data or the catalog, whatever statements the request contains and in whatever order.", "quantifier": "all statement lists and principals", "why_tests_cant": "all statement combinations", "anchors": ["src/frontend/http.rs: uncached_read_write_query", "src/context/logical.rs: is_read_only, is_statement_read_only"]}
{"id": "C37", "title": "The cached GET endpoint never executes writes", "statement": "A GET query request never modifies data or the catalog, even for principals with write access.", "quantifier": "all queries", "why_tests_cant": "all plans", "anchors": ["src/frontend/http.rs: cached_read_query", "src/context/logical.rs: is_read_only"]}
{"id": "C38", "title": "An ETag identifies the versions of the tables read", "statement": "If two executions of the same GET query return the same ETag then they read the same versions of the same tables (so a 304 reply is justified).", "quantifier": "all queries and table histories, given a collision-free hash", "why_tests_cant": "collision freedom of the encoding over all inputs", "anchors": ["src/frontend/http.rs: ETagBuilderVisitor, plan_to_etag, cached_read_query"]}
{"id": "C39", "title": "Percent-encoded queries round trip", "statement": "Every query text encoded into the URL path with every non-alphanumeric character percent-encoded is executed verbatim.", "quantifier": "all query strings", "why_tests_cant": "all strings", "anchors": ["src/frontend/http.rs: cached_read_query"]}
{"id": "C40", "title": "Flight query tickets are one-shot", "statement": "The result stream behind a Flight ticket is delivered at most once, to the first fetch of that ticket, and never for another ticket.", "quantifier": "all interleavings of query registrations and fetches", "why_tests_cant": "interleavings", "anchors": ["src/frontend/flight/handler.rs: query_to_stream, fetch_stream"]}
{"id": "C41", "title": "Catalog names are unique and lookups return what was created", "statement": "At every moment there is at most one database, schema per database and table per schema of a given name; a lookup returns the most recently created live object of that name or reports that it does not exist.", "quantifier": "all histories of catalog operations", "why_tests_cant": "unbounded histories", "anchors": ["src/repository/default.rs: create_database, create_collection, create_table, get_table", "src/catalog/repository.rs"]}
{"id": "C42", "title": "Dropping cascades exactly", "statement": "Dropping a database, schema or table removes it and everything inside it from the catalog and nothing else.", "quantifier": "all catalog states", "why_tests_cant": "all states", "anchors": ["src/repository/default.rs: delete_table, delete_collection, delete_database"]}
{"id": "C43", "title": "Renaming a table changes only its name", "statement": "After a successful rename the table's identity, columns and versions are found under the new name and nowhere else, all other tables are unaffected; a rename to an existing name fails and changes nothing.", "quantifier": "all catalog states", "why_tests_cant": "all states", "anchors": ["src/repository/default.rs: rename_table", "src/catalog/repository.rs: TableStore::update"]}
{"id": "C44", "title": "VACUUM keeps exactly the latest version of each table", "statement": "Deleting old versions removes, for the given tables (or all), every version record except the latest one of each table, and the latest version with its columns is untouched.", "quantifier": "all catalog states", "why_tests_cant": "all states", "anchors": ["src/repository/default.rs: delete_old_versions"]}
{"id": "C45", "title": "CREATE TABLE is atomic in the catalog", "statement": "A CREATE TABLE that fails or crashes leaves no table of that name in the catalog.", "quantifier": "all inputs and crash points", "why_tests_cant": "crash points", "anchors": ["src/repository/default.rs: create_table", "src/context/delta.rs: create_delta_table"]}
{"id": "C46", "title": "CREATE DATABASE IF NOT EXISTS repairs a crashed creation", "statement": "After CREATE DATABASE IF NOT EXISTS succeeds the database has its default schema.", "quantifier": "all crash points", "why_tests_cant": "crash points", "anchors": ["src/context/physical.rs: create_physical_plan (CreateCatalog)"]}
{"id": "C47", "title": "CREATE ... IF NOT EXISTS is idempotent", "statement": "CREATE SCHEMA / TABLE IF NOT EXISTS succeeds without effect if the object exists.", "quantifier": "all catalog states", "why_tests_cant": "all states", "anchors": ["src/context/physical.rs: create_physical_plan (CreateCatalogSchema, CreateTable)"]}
{"id": "C48", "title": "DROP FUNCTION removes exactly the named functions", "statement": "DROP FUNCTION f1, ..., fn removes f1..fn from the database and no other function, and they can no longer be called.", "quantifier": "all function lists and catalog states", "why_tests_cant": "all lists", "anchors": ["src/repository/default.rs: drop_function", "src/context/mod.rs: reload_schema", "src/catalog/repository.rs: FunctionStore"]}
{"id": "C49", "title": "CREATE OR REPLACE FUNCTION overwrites, CREATE FUNCTION does not", "statement": "CREATE FUNCTION fails if the name exists in the database and changes nothing; with OR REPLACE the stored definition becomes the new one; other functions are unaffected.", "quantifier": "all catalog states", "why_tests_cant": "all states", "anchors": ["src/repository/default.rs: create_function"]}
{"id": "C50", "title": "Fully qualified CREATE TABLE creates the table where it says", "statement": "CREATE TABLE db.schema.t creates the table in database db.", "quantifier": "all names", "why_tests_cant": "all names", "anchors": ["src/context/delta.rs: create_delta_table", "src/context/mod.rs: resolve_table_ref"]}
{"id": "C51", "title": "Uploads append to the table they name", "statement": "Uploading files twice to the same schema and table appends the second file to the table the first one created.", "quantifier": "all schema and table names", "why_tests_cant": "all names", "anchors": ["src/context/physical.rs: file_to_table", "src/frontend/http.rs: upload"]}
{"id": "C52", "title": "Lazily dropped tables are eventually deleted", "statement": "A dropped table whose cleanup fails a bounded number of times is retried and eventually deleted when failures stop.", "quantifier": "all failure histories", "why_tests_cant": "failure histories", "anchors": ["src/utils.rs: gc_databases"]}
{"id": "C53", "title": "Time travel reads the requested version of the requested table", "statement": "A query t('timestamp') reads the latest version of t not newer than the timestamp, for the table that the unversioned name would resolve to in the session.", "quantifier": "all names (quoted, qualified, mixed case), scopes and version histories", "why_tests_cant": "all names x histories", "anchors": ["src/version.rs: TableVersionProcessor", "src/context/logical.rs: rewrite_time_travel_query"]}
{"id": "C54", "title": "Multi-statement requests are split at semicolons", "statement": "Parsing s1; s2; ...; sn yields exactly the statements that s1, ..., sn yield on their own, in order.", "quantifier": "all statement sequences", "why_tests_cant": "all sequences", "anchors": ["src/datafusion/parser.rs: parse_sql_with_dialect, parse_copy, parse_create_external_table"]}
{"id": "C55", "title": "Column types are honoured or rejected", "statement": "A DECIMAL(p, s) column is either created with exactly that precision and scale or rejected.", "quantifier": "all precisions and scales", "why_tests_cant": "all u64 pairs", "anchors": ["src/datafusion/utils.rs: make_decimal_type"]}
{"id": "C56", "title": "Filters pushed down to remote databases mean the same there", "statement": "Whenever a filter is declared exactly pushed down, the SQL text sent to the remote database is parsed there (with standard operator precedence) as an expression with the value of the original filter on every row.", "quantifier": "all filter expressions", "why_tests_cant": "unbounded expression trees", "anchors": ["datafusion_remote_tables/src/filter_pushdown.rs: f_up, filter_expr_to_sql", "datafusion_remote_tables/src/provider.rs: scan, supports_filters_pushdown"]}
{"id": "C57", "title": "Literals and identifiers cannot break out of the pushed SQL", "statement": "Every string literal and column name in a pushed-down filter is read back by the remote lexer as exactly that string.", "quantifier": "all strings, each supported dialect", "why_tests_cant": "all strings", "anchors": ["datafusion_remote_tables/src/filter_pushdown.rs: scalar_value_to_sql, quote_identifier_double_quotes, quote_identifier_backticks"]}
{"id": "C58", "title": "UDF values round trip", "statement": "A WASM UDF that returns its argument unchanged returns the same SQL value, for every supported type.", "quantifier": "all values of all types", "why_tests_cant": "all 128-bit values", "anchors": ["src/wasm_udf/wasm.rs: messagepack_encode_input_value, messagepack_decode_results"]}
{"id": "C59", "title": "UDF input buffers are written in bounds", "statement": "Passing arguments to a UDF writes only inside the buffer the module allocated for it, and what the module finds there is the length-prefixed encoding.", "quantifier": "all argument encodings", "why_tests_cant": "all sizes", "anchors": ["src/wasm_udf/wasm.rs: write_udf_input"]}
{"id": "C60", "title": "UDFs are applied row by row", "statement": "Calling a UDF on columns gives, for every row, the function's value on that row's arguments, broadcasting scalars, and never panics.", "quantifier": "all argument vectors and lengths", "why_tests_cant": "all lengths", "anchors": ["src/wasm_udf/wasm.rs: columnar_values_to_array, make_scalar_function_from_wasm"]}
{"id": "C61", "title": "Persistent data is never combined with volatile metadata", "statement": "A configuration is accepted only if catalog and object store are both in memory or both persistent, S3 has a region or endpoint, and the memory limit is at least the minimum.", "quantifier": "all configurations", "why_tests_cant": "all configurations", "anchors": ["src/config/schema.rs: validate_config"]}
{"id": "C62", "title": "The garbage collection interval is the configured one", "statement": "The background cleanup runs every configured number of hours for every configurable value.", "quantifier": "all u16 values", "why_tests_cant": "all values", "anchors": ["src/main.rs: main (gc_interval)"]}
{"id": "C63", "title": "Object stores are never shared between different credentials", "statement": "Two requests get the same cached object store only if they name the same URL and the same options, irrespective of the order of the options.", "quantifier": "all URLs and option maps", "why_tests_cant": "all maps", "anchors": ["src/object_store/factory.rs: StoreCacheKey, get_log_store_for_table"]}
{"id": "C64", "title": "HTTP range requests ask for exactly the requested bytes", "statement": "Reading bytes [a, b) of a remote HTTP file requests exactly this range and returns at most b-a bytes or an error.", "quantifier": "all ranges and server replies", "why_tests_cant": "all ranges", "anchors": ["src/object_store/http.rs: get_range, get_opts"]}
{"id": "C65", "title": "Memory accounting of queries is transparent", "statement": "Wrapping the memory pool in the metrics pool never changes whether a reservation succeeds, and allocated minus deallocated bytes equals the reserved bytes at every moment.", "quantifier": "all histories of reservations", "why_tests_cant": "histories", "anchors": ["src/memory_pool.rs: MemoryPoolMetrics"]}
{"id": "C66", "title": "Schema listing groups every table exactly once", "statement": "The database listing used to plan queries contains every schema of the database (also empty ones) and every table with its location exactly once, under its own schema.", "quantifier": "all catalog contents", "why_tests_cant": "all catalog states", "anchors": ["src/repository/default.rs: list_collections", "src/catalog/repository.rs: SchemaStore::list"]}
{"id": "C67", "title": "Squashing can be repeated", "statement": "While changes accumulate in memory, a squashed batch stands for the changes it was made from: squashing it again, together with later changes, has the same effect as squashing the original changes.", "quantifier": "all valid change streams, any number of squashing rounds", "why_tests_cant": "histories", "anchors": ["src/sync/writer.rs: physical_squashing", "src/sync/utils.rs: squash_batches"]}
{"id": "C68", "title": "The order of the key columns in a message does not matter", "statement": "A sync message that is accepted by the schema validation is interpreted by the names of its key columns, whatever the order in which the old-key and the new-key columns are listed.", "quantifier": "all accepted column lists and rows", "why_tests_cant": "all column orders", "anchors": ["src/sync/schema/mod.rs: try_new", "src/sync/utils.rs: squash_batches"]}
{"id": "C69", "title": "The schema check of an Iceberg insert is exact", "statement": "An INSERT into an Iceberg table is let through exactly if every row its query may yield fits the table's columns one by one (count, type, and no NULL in a required column); every row of every version fits the schema of that version.", "quantifier": "all pairs of schemas, all rows, all interleavings of inserts", "why_tests_cant": "all pairs of schemas", "anchors": ["src/context/iceberg.rs: is_schema_aligned, record_batches_to_iceberg"]}
{"id": "C70", "title": "A POST request runs its statements in order and answers its one query", "statement": "The statements of a POST request are carried out in order, each exactly if all before it succeeded; a request that is carried out contains at most one query, as its last statement, and its result is the reply; a refused request carries out nothing.", "quantifier": "all statement lists, all failures", "why_tests_cant": "all lists and failure points", "anchors": ["src/frontend/http.rs: uncached_read_write_query"]}
{"id": "C71", "title": "A request hash selects one query", "statement": "A GET request with the query in the header or body is only executed if the hash in its path is the hash of the query, so that (for a collision-free hash) requests with the same path execute the same query, and a cache keyed by the path is sound.", "quantifier": "all paths, headers and bodies", "why_tests_cant": "all strings", "anchors": ["src/frontend/http.rs: cached_read_query"]}
{"id": "C72", "title": "Recording a version keeps the columns and the other versions", "statement": "Recording a new version of a table adds one version, later than all others, with the columns of the table's latest version; all other versions and columns stay as they are.", "quantifier": "all catalog states", "why_tests_cant": "all catalog states", "anchors": ["src/repository/default.rs: create_new_version"]}
{"id": "C73", "title": "CONVERT registers the table it converts", "statement": "CONVERT of a location of Parquet files registers them, at that location, as a table of the named schema with all rows readable and version 0 recorded; a refused CONVERT leaves catalog and data as they were.", "quantifier": "all worlds (catalog, object store), all locations and names, all crash points", "why_tests_cant": "all states and crash points", "anchors": ["src/context/physical.rs: create_physical_plan (ConvertTable)", "src/context/delta.rs: create_delta_table"]}
{"id": "C74", "title": "DROP TABLE removes the table and its data", "statement": "A successful DROP TABLE removes exactly the named table from the catalog and its files from the store; a failed or interrupted one leaves the table either as it was or gone.", "quantifier": "all worlds, all names in all databases, all crash points", "why_tests_cant": "all states and crash points", "anchors": ["src/context/physical.rs: create_physical_plan (DropTable)", "src/context/delta.rs: delete_delta_table"]}
{"id": "C75", "title": "Every committed write is a recorded version", "statement": "The versions of a table listed in the catalog are exactly its committed versions: none is listed that does not exist, and none exists that is not listed.", "quantifier": "all histories of statements with crashes", "why_tests_cant": "histories and crash points", "anchors": ["src/context/delta.rs: plan_to_delta_table", "src/context/physical.rs: create_physical_plan (Truncate)"]}
{"id": "C76", "title": "No two tables share a location", "statement": "Two different tables never have the same location, so that writing or dropping one never changes the data of another.", "quantifier": "all histories of statements with crashes", "why_tests_cant": "histories", "anchors": ["src/context/delta.rs: create_delta_table", "src/context/physical.rs: create_physical_plan"]}
{"id": "C77", "title": "DROP SCHEMA removes the schema, its tables and their data", "statement": "A successful DROP SCHEMA removes the schema, all its tables and their files, and nothing else.", "quantifier": "all worlds, all schemas, all crash points", "why_tests_cant": "all states and crash points", "anchors": ["src/context/physical.rs: create_physical_plan (DropCatalogSchema)"]}
{"id": "C78", "title": "DROP FUNCTION takes effect", "statement": "After a successful DROP FUNCTION the function can no longer be called, and after a successful CREATE FUNCTION it can be.", "quantifier": "all catalogs, all functions, all sessions", "why_tests_cant": "all states", "anchors": ["src/context/physical.rs: create_physical_plan (DropFunction)", "src/context/mod.rs: reload_schema, register_function"]}
{"id": "C79", "title": "Clauses of COPY and CREATE EXTERNAL TABLE in any order", "statement": "The clauses after COPY source and after CREATE EXTERNAL TABLE name (columns) may come in any order; the statement means the same in each (several WITH ORDER clauses are kept in the order written). A clause given twice, or a required one (TO; STORED AS and LOCATION) left out, is refused.", "quantifier": "all clause lists in all orders", "why_tests_cant": "all orders and contents of clauses", "anchors": ["src/datafusion/parser.rs: parse_copy, parse_create_external_table"]}
{"id": "C80", "title": "CREATE OR REPLACE replaces", "statement": "CREATE OR REPLACE of an object is not the same as CREATE: it replaces an object that exists.", "quantifier": "all statements, all kinds of objects", "why_tests_cant": "all statements", "anchors": ["src/datafusion/parser.rs: parse_create", "src/context/logical.rs: create_logical_plan_from_statement"]}
{"id": "C81", "title": "TRUNCATE, VACUUM, CONVERT and COPY mean what is written", "statement": "A table is truncated, vacuumed, converted or copied exactly if the statement says so, and with the table, database and location it names; no other statement is taken for one of these.", "quantifier": "all token lists", "why_tests_cant": "all statements", "anchors": ["src/datafusion/parser.rs: parse_truncate, parse_vacuum, parse_convert, parse_copy", "src/context/logical.rs: create_logical_plan_from_statement"]}
{"id": "C82", "title": "A function is called by the name it is created with", "statement": "After a successful CREATE FUNCTION f, the call f(...) finds this function, however f is written.", "quantifier": "all names, quoted or not, all catalogs and sessions", "why_tests_cant": "all names", "anchors": ["src/context/physical.rs: create_physical_plan (CreateFunction)", "src/context/logical.rs: create_logical_plan_from_statement (CreateFunction)", "src/context/mod.rs: register_function"]}
{"id": "C83", "title": "Constraints on columns are honoured or refused", "statement": "What CREATE TABLE says about a column (NOT NULL, PRIMARY KEY, UNIQUE, REFERENCES, CHECK, DEFAULT) is kept, or the statement is refused; so are constraints of the table.", "quantifier": "all CREATE TABLE statements", "why_tests_cant": "all combinations of columns and options", "anchors": ["src/datafusion/utils.rs: build_schema", "src/context/logical.rs: create_logical_plan_from_statement (CreateTable)"]}
{"id": "C84", "title": "Clauses of CREATE TABLE are honoured or refused", "statement": "CREATE TABLE with a clause that is not supported (TEMPORARY, LIKE, CLONE, PARTITION BY, ORDER BY, COMMENT, WITH, TBLPROPERTIES) is refused rather than executed without it.", "quantifier": "all CREATE TABLE statements", "why_tests_cant": "all combinations of clauses", "anchors": ["src/context/logical.rs: create_logical_plan_from_statement (CreateTable)"]}
{"id": "C85", "title": "The columns of a table have different names", "statement": "CREATE TABLE with two columns of the same name (up to case, if not quoted) is refused; otherwise the columns of the new table have different names.", "quantifier": "all column lists", "why_tests_cant": "all lists of names", "anchors": ["src/datafusion/utils.rs: build_schema, normalize_ident"]}
{"id": "C86", "title": "Concurrent queries do not disturb time travel", "statement": "A query that reads versions of tables gives the same answer whatever other queries run at the same time.", "quantifier": "all queries, all points at which another query reloads the catalog", "why_tests_cant": "schedules", "anchors": ["src/context/logical.rs: rewrite_time_travel_query", "src/context/mod.rs: reload_schema"]}
{"id": "C87", "title": "Columns of a versioned table can be qualified by its name", "statement": "In a query on t('timestamp') the columns can be referred to as t.c, as in a query on t; an alias is kept.", "quantifier": "all table references with a version", "why_tests_cant": "all names", "anchors": ["src/version.rs: pre_visit_table_factor"]}
{"id": "C88", "title": "The query of a remote scan selects what was asked for", "statement": "The SQL sent to a remote database for a scan selects exactly the requested columns, of the rows that satisfy all pushed-down filters, up to the requested limit.", "quantifier": "all column names, filter lists, limits, table names and dialects", "why_tests_cant": "unbounded texts", "anchors": ["datafusion_remote_tables/src/provider.rs: scan"]}
{"id": "C89", "title": "Creating a function checks it", "statement": "A function declared with types that its language or its module does not support is refused with an error when it is created; a function that was created never crashes the server when it is called.", "quantifier": "all modules, declared types and batches", "why_tests_cant": "all combinations of declared and actual types", "anchors": ["src/wasm_udf/wasm.rs: create_udf_from_wasm, make_scalar_function_from_wasm", "src/wasm_udf/data_types.rs: get_wasm_type"]}
{"id": "C90", "title": "A function call gives its buffers back", "statement": "A call of a user defined function that returns has released the input buffer it asked for and the output buffer the function returned, each exactly once and with its whole size.", "quantifier": "all modules, states and arguments", "why_tests_cant": "all sizes and modules", "anchors": ["src/wasm_udf/wasm.rs: call, write_udf_input, read_udf_output"]}
{"id": "C91", "title": "Access settings mean what they say", "statement": "The setting any opens access to everybody and off closes it; every other text asks for the password with this hash, and a text that cannot be a hash is refused.", "quantifier": "all texts", "why_tests_cant": "all texts", "anchors": ["src/config/schema.rs: AccessSettings::deserialize, str_to_hex_hash"]}
{"id": "C92", "title": "Equal requests share an object store", "statement": "Two requests with the same URL and the same options are served by the same cached object store, whatever the order of the options.", "quantifier": "all schedules of requests", "why_tests_cant": "all schedules and option maps", "anchors": ["src/object_store/factory.rs: get_log_store_for_table, StoreCacheKey"]}
{"id": "C93", "title": "A type means the same in functions and in tables", "statement": "A type that CREATE FUNCTION and CREATE TABLE both accept denotes the same values in both, with the same parameters.", "quantifier": "all type names in any case", "why_tests_cant": "all names and parameters", "anchors": ["src/wasm_udf/data_types.rs: parse_create_function_data_type", "src/wasm_udf/wasm.rs: sql_type_to_arrow_type", "src/datafusion/utils.rs: convert_simple_data_type"]}
{"id": "C94", "title": "A function is read back as it was created", "statement": "A function that CREATE FUNCTION accepted is stored and read back with the same entry point, language, types, code and volatility; all functions of a database are found again.", "quantifier": "all function definitions and lists of functions", "why_tests_cant": "all combinations of types", "anchors": ["src/repository/default.rs: create_function", "src/catalog/metastore.rs: parse_create_function_details, build_functions", "src/wasm_udf/data_types.rs: CreateFunctionDetails"]}
{"id": "C95", "title": "The URL that is read is the URL that was given", "statement": "CREATE EXTERNAL TABLE ... LOCATION 'http(s)://...' reads the file at exactly this URL, or is refused with an error.", "quantifier": "all URLs", "why_tests_cant": "all texts", "anchors": ["src/object_store/http.rs: try_prepare_http_url, get_uri", "src/context/physical.rs: prepare_create_external_table"]}
{"id": "C96", "title": "The size of a remote file is its length", "statement": "The size that is determined for a file on an HTTP server is the length of the file; a reply that does not tell it is an error, not a crash.", "quantifier": "all server replies", "why_tests_cant": "all replies", "anchors": ["src/object_store/http.rs: head, head_via_get, CONTENT_RANGE_RE"]}
{"id": "C97", "title": "What is read over https comes from https", "statement": "A file read by an https URL has the contents that the https server sent, whatever else was read before.", "quantifier": "all histories of reads", "why_tests_cant": "all histories", "anchors": ["src/object_store/http.rs: add_http_object_store", "src/object_store/cache.rs: new_from_sibling, CacheKey"]}
{"id": "C98", "title": "The options reported for an object store rebuild that store", "statement": "The key/value options and the URL that are reported for a configured store, given to the function that builds stores from options, yield a store with the same bucket, region, endpoint, transport and way of signing; and the options read back as a configuration are that configuration.", "quantifier": "every S3, GCS and local configuration, every order of the options, every environment", "why_tests_cant": "The set of configurations is unbounded and the order of a hash map is not under a test's control; the unit tests of the crate compare maps with literals and never build a store from what was reported.", "anchors": ["object_store_factory/src/aws.rs: S3Config::{to_hashmap, from_hashmap, build_amazon_s3}", "object_store_factory/src/google.rs: GCSConfig", "object_store_factory/src/local.rs: LocalConfig", "object_store_factory/src/lib.rs: build_storage_location_info, build_object_store_from_opts"]}
{"id": "C99", "title": "An external table is read with the options of its own statement", "statement": "After CREATE EXTERNAL TABLE on a bucket, the table is read with the region, endpoint and credentials of its OPTIONS, or with those of the server if there are none, whatever other external tables are created; a statement with unusable options is answered with an error.", "quantifier": "every history of CREATE EXTERNAL TABLE statements, every set of options, every server configuration", "why_tests_cant": "The credentials a read uses depend on the whole history of statements, which a test of one table does not vary.", "anchors": ["src/context/physical.rs: prepare_create_external_table", "object_store_factory/src/aws.rs: S3Config::{from_bucket_and_options, build_amazon_s3}"]}
{"id": "C100", "title": "The credentials of a store reach Iceberg tables unchanged", "statement": "Keys, session token, region, endpoint and anonymous access in the options of a store are passed on to the reader of Iceberg tables under the names it knows.", "quantifier": "every set of options, in every order of iteration", "why_tests_cant": "Depends on every combination and order of options, and on the agreement of two option vocabularies.", "anchors": ["object_store_factory/src/lib.rs: object_store_opts_to_file_io_props", "object_store_factory/src/aws.rs: s3_opts_to_file_io_props", "src/catalog/metastore.rs"]}
{"id": "C101", "title": "Explicit options win over the environment, and the order of options does not matter", "statement": "A store built from options uses every setting that is given explicitly, takes settings that are missing from the environment variables, and does not depend on the order in which options or variables are enumerated.", "quantifier": "every set of options, every environment, every order of both", "why_tests_cant": "Orders of hash maps and environments cannot be enumerated by tests.", "anchors": ["object_store_factory/src/aws.rs: map_options_into_amazon_s3_config_keys, add_amazon_s3_specific_options, add_amazon_s3_environment_variables", "object_store_factory/src/google.rs: add_google_cloud_storage_environment_variables", "object_store_factory/src/lib.rs: build_object_store_from_opts"]}
{"id": "C102", "title": "Changes reach the table their command names", "statement": "Changes sent to the sync endpoint are written, in the order in which they were sent, to the table whose store and path the command gives, and to no other table, whatever is sent to other tables and whenever changes are flushed.", "quantifier": "every sequence of sync commands and flushes, every store location, option and path", "why_tests_cant": "Which table gets a change depends on all commands that wait in memory; tests use one table or tables with plainly different paths.", "anchors": ["src/frontend/flight/sync/writer.rs: enqueue_sync, flush_syncs", "src/frontend/flight/handler.rs: process_sync_cmd", "src/object_store/factory.rs: get_log_store_for_table"]}
{"id": "C103", "title": "A table is stored where its location and path say", "statement": "The files of a table lie in the directory that its store location followed by its path names, whichever part of the directory belongs to the location and which to the path, and never outside the store.", "quantifier": "every store location, every path", "why_tests_cant": "Paths are arbitrary texts; slashes, dots, blanks and escapes combine without bound.", "anchors": ["src/object_store/factory.rs: get_log_store_for_table", "src/object_store/wrapped.rs: get_log_store, table_prefix", "src/catalog/metastore.rs: build_table", "object_store_factory/src/lib.rs: build_object_store_from_opts"]}
{"id": "C104", "title": "Every listed table can be found and is the one listed", "statement": "A query that names a table of the metastore's listing reads the table whose format, store and path the listing gives; what is found was listed; the schemas that are shown are the ones that can be used.", "quantifier": "every listing of schemas, tables and stores", "why_tests_cant": "Listings come from other systems and are arbitrary: repeated names, reserved names and missing stores combine without bound.", "anchors": ["src/catalog/metastore.rs: build_catalog, build_schema, build_table", "src/provider.rs: SeafowlDatabase, SeafowlSchema", "src/system_tables.rs: SystemSchemaProvider"]}
{"id": "C105", "title": "A broken table affects only the queries that name it", "statement": "A query answers as if tables that it does not name did not exist, even if these cannot be opened or read.", "quantifier": "every listing, every query", "why_tests_cant": "Any of arbitrarily many tables can be broken in many ways; tests use catalogs in which all tables work.", "anchors": ["src/catalog/metastore.rs: build_catalog, build_table", "src/context/mod.rs: reload_schema", "src/provider.rs: SeafowlSchema::table"]}
{"id": "C106", "title": "A query is resolved in its own metastore", "statement": "A query sent with an inline metastore sees exactly the tables of that metastore, and other queries see those of the server, whatever runs at the same time.", "quantifier": "every schedule of queries with and without inline metastores and search paths, and of changes of the catalog", "why_tests_cant": "Depends on the interleaving of planning steps of concurrent queries.", "anchors": ["src/frontend/flight/handler.rs: query_to_stream", "src/context/mod.rs: with_metastore, scope_to, reload_schema"]}
{"id": "C107", "title": "External tables belong to the database they were created in", "statement": "After CREATE EXTERNAL TABLE the table can be read by later queries on that database, and neither be seen in nor conflict with another database.", "quantifier": "every history of creations and reads on every database", "why_tests_cant": "Depends on the whole history of statements on all databases.", "anchors": ["src/catalog/metastore.rs: staging_schema, new_from_memory", "src/provider.rs: SeafowlDatabase::schema", "src/context/mod.rs: resolve_staging_ref"]}
{"id": "C108", "title": "A restart is reported to the sync client exactly once", "statement": "After each start of the server the first answer to a sync command, and no other one, says that it is the first.", "quantifier": "every schedule of sync commands, errors and restarts", "why_tests_cant": "Races between commands and the place of the first error decide; tests send commands one by one and expect them to succeed.", "anchors": ["src/frontend/flight/handler.rs: process_sync_cmd, first_sync", "clade/proto/sync.proto: DataSyncResponse.first"]}
{"id": "C109", "title": "Statements entered together behave as if entered one after the other", "statement": "Several statements in one line of the command line, or in one one-off command, print the same results and leave the same database as the statements entered one by one, up to the first error.", "quantifier": "every database that statements can produce, every list of statements", "why_tests_cant": "Any combination of queries, writes and VACUUMs of any length can be entered; tests enter a few fixed pairs.", "anchors": ["src/cli/mod.rs: exec_and_print", "src/utils.rs: run_one_off_command", "src/context/physical.rs: create_physical_plan"]}
{"id": "C110", "title": "A line of the command line does what it says", "statement": "A command (\\d, \\d name, \\?, \\q, \\quit) has the effect that the help describes and no other, whatever blanks surround it; other input is run as it was entered, as soon as its statements are complete and not before.", "quantifier": "every input text", "why_tests_cant": "Input is arbitrary text with any blanks, quotes and semicolons.", "anchors": ["src/cli/mod.rs: command_loop, handle_command", "src/cli/commands.rs: Command, all_commands_info", "src/cli/helper.rs: validate_input"]}
{"id": "C111", "title": "A statement sent with the Postgres protocol has its effect once for each execution", "statement": "A statement changes the database when it is executed, once for each execution, and not when it is only prepared or bound.", "quantifier": "every history of Parse, Bind, Execute and Query messages", "why_tests_cant": "Drivers interleave these messages in many ways; tests use the order of one driver.", "anchors": ["src/frontend/postgres.rs: prepare, create_portal, fetch"]}
{"id": "C112", "title": "A setting is honoured or refused", "statement": "A documented setting that is given in the configuration file or in the environment has the value that was given once the server runs, a setting that is not given has its documented default, and a setting that does not exist or a value that does not fit keeps the server from starting.", "quantifier": "every configuration file and every environment", "why_tests_cant": "There are dozens of settings with values of many types, in any combination; tests load a few files.", "anchors": ["src/config/schema.rs: SeafowlConfig, load_config, load_config_from_string, build_config", "docs: configuration"]}
{"id": "C113", "title": "The environment overrides the file", "statement": "Every setting can be given by its environment variable, which wins over the file; settings without a variable are those of the file.", "quantifier": "every setting, file and environment", "why_tests_cant": "Quantifies over all settings and all values; tests set two variables.", "anchors": ["src/config/schema.rs: ENV_PREFIX, ENV_SEPARATOR, load_config"]}
{"id": "C114", "title": "The configuration file that is named is the one that is used", "statement": "If the file that was named exists, the server runs with it; if it is missing, the server says so and does not start. Without a name a default file is written at the first start, and later starts behave like the first one.", "quantifier": "every set of files, name and environment", "why_tests_cant": "Depends on all contents of the directory and on what an earlier start left behind.", "anchors": ["src/main.rs: main", "src/config/schema.rs: load_config, DEFAULT_CONFIG"]}
{"id": "C115", "title": "A starting server prepares the catalog", "statement": "Once the server runs, the default database and its schema public exist, and everything else in the catalog is as before; this holds if servers start at the same time, if starts fail half-way, and if the catalog is read only and has what is needed or holds other databases.", "quantifier": "every content of the catalog, every number of servers, every schedule of their steps and of failures", "why_tests_cant": "Races and failures between looking and creating; tests start one server on an empty catalog.", "anchors": ["src/config/context.rs: build_context", "src/catalog/repository.rs: create_database, create_collection"]}
{"id": "C116", "title": "The answer to a query has all of its rows and values", "statement": "A client that reads the body of a successful answer as JSON lines gets one object for each row, in order, and finds in it under the name of each column the value of that column: texts character by character, numbers, flags and nulls.", "quantifier": "every result: any number of rows and columns, any names, any values", "why_tests_cant": "Names and texts hold quotes, backslashes and control characters in any combination, and names can repeat; tests compare a few literal bodies.", "anchors": ["src/frontend/http.rs: batch_to_json, plan_to_response"]}
{"id": "C117", "title": "A query that fails is not answered like one that succeeds", "statement": "The status of an answer tells whether the query succeeded; an answer of a query that failed is not marked as one that caches may keep, and a conditional request never confirms it.", "quantifier": "every query, every point at which it fails, every sequence of rows before that point, every later request", "why_tests_cant": "Failures can come at any point of a stream; tests cover errors at planning.", "anchors": ["src/frontend/http.rs: plan_to_response, cached_read_query, uncached_read_write_query, filters"]}
{"id": "C118", "title": "The status of an answer tells whose fault an error is", "statement": "Errors in the request are reported with 4xx and faults of the server (storage, memory, internal errors) with 5xx.", "quantifier": "every error of every route", "why_tests_cant": "Quantifies over all errors of the engine and the store; tests provoke a few.", "anchors": ["src/frontend/http_utils.rs: ApiError, status_code_body, handle_rejection"]}
{"id": "C119", "title": "A name in a URL is the name of the object", "statement": "The database, schema and table named in the path of a request, encoded as URLs require, are those that the request works on; without a database it is the default one.", "quantifier": "every name of a database, schema and table, on every route", "why_tests_cant": "Names can hold any characters; tests use plain words.", "anchors": ["src/frontend/http.rs: filters, upload, cached_read_query, uncached_read_write_query"]}
{"id": "C120", "title": "An uploaded file is appended as it is", "statement": "An accepted upload appends one row for each row of the file, in order, after the rows of the table; each column of the new rows has the value that the file has under the name of the column, and a file that does not fit (other columns, values out of range) is refused.", "quantifier": "every table, every CSV and Parquet file, with and without header and schema", "why_tests_cant": "Quantifies over all orders and sets of columns and all values; tests upload a file with the columns of the table in its order.", "anchors": ["src/context/physical.rs: file_to_table", "src/frontend/http.rs: upload"]}
{"id": "C121", "title": "The form of an upload is honoured or refused", "statement": "The parts of the form (has_header, schema, file) have their effect in any order; every file of the form is appended; a flag, schema or part that is not understood or cannot be honoured is refused.", "quantifier": "every list of parts", "why_tests_cant": "All orders, repetitions and contents of parts; tests send one order.", "anchors": ["src/frontend/http.rs: upload"]}
{"id": "C122", "title": "A refused upload changes nothing", "statement": "If an upload is refused, the tables and schemas are as before, so that it can be repeated with a corrected file.", "quantifier": "every state, form and file", "why_tests_cant": "Failures come at any record of files of any length; tests look at the answer only.", "anchors": ["src/context/physical.rs: file_to_table", "src/context/delta.rs: create_delta_table, plan_to_delta_table"]}
{"id": "C123", "title": "The limit of uploads is the one that is set", "statement": "An upload is accepted by its size if and only if it is not larger than the configured number of mebibytes.", "quantifier": "every setting and size", "why_tests_cant": "Integer overflow at values no test uses.", "anchors": ["src/frontend/http.rs: filters", "src/config/schema.rs: upload_data_max_length, MEBIBYTES"]}
{"id": "C124", "title": "On catalogs that are managed elsewhere, a refused statement changes nothing", "statement": "With an external metastore, or one that comes with the request, the server cannot change the catalog, and a statement that is answered by an error leaves tables, files and functions as they were; in particular trying a refused INSERT again does not add its rows twice.", "quantifier": "All catalogs of such a kind, all contents of the object stores, all statements, any number of retries.", "why_tests_cant": "Which statements ask the catalog before and which after their other effects is a matter of every arm of the planner, and tests of external catalogs only read.", "anchors": ["src/context/physical.rs: create_physical_plan", "src/context/delta.rs: plan_to_delta_table, delete_delta_table", "src/catalog/mod.rs: default methods of the store traits", "src/catalog/external.rs", "src/catalog/memory.rs"]}
{"id": "C125", "title": "A write goes to the table that it names, wherever that table is", "statement": "INSERT, UPDATE and DELETE of a table in any object store change the rows of that table only, and the table can be read afterwards.", "quantifier": "All places of tables (stores and directories), all names of directories, all contents, all statements.", "why_tests_cant": "The directory of a table is found again from its name alone; tests only use tables of the configured store.", "anchors": ["src/context/mod.rs: get_table_uuid", "src/context/delta.rs: plan_to_delta_table", "src/context/physical.rs: create_physical_plan (Update, Delete)", "src/object_store/wrapped.rs: get_log_store"]}
{"id": "C126", "title": "A synchronised table always shows a moment of its change stream", "statement": "Whatever the sizes of the messages and the moments at which pending changes are squashed, flushes are stopped or go through, the stored table is what the first n messages of the stream make of it, for some n that never decreases; a flush that succeeds brings it up to date, and a flush that is not stopped succeeds if the table is not up to date.", "quantifier": "All tables, streams of messages (any schemas, keys and sizes) and schedules of squashings, stopped flushes and flushes; all ways to cut rows into files.", "why_tests_cant": "The interplay of appending, squashing, merging and pruning depends on the schedule; tests fix one.", "anchors": ["src/sync/writer.rs: enqueue_sync, flush_syncs, physical_squashing", "src/sync/planner.rs: plan_delta_syncs", "src/sync/utils.rs: squash_batches"]}
{"id": "C127", "title": "The in-memory gauges show what is pending", "statement": "After every message and every background tick, the gauges seafowl_changeset_writer_in_memory_bytes_current and _rows_current equal the bytes and rows of all pending batches; they are zero when nothing is pending.", "quantifier": "All histories of messages, squashings, flushes and failures from the start of the process.", "why_tests_cant": "Gauges are adjusted by increments at four places; a wrong sign or a missed path shows only after many squashings and is never compared with the queue by tests.", "anchors": ["src/sync/metrics.rs: SyncWriterMetrics", "src/sync/writer.rs: enqueue_sync, physical_squashing, remove_sync"]}
{"id": "C128", "title": "Rows and bytes received are flushed, squashed away or pending", "statement": "At any time the received rows (bytes) are the sum of the flushed ones, those removed by squashing and the pending ones, as long as squashing makes nothing larger; the counters never decrease, and each accepted message is counted once, refused ones not at all.", "quantifier": "All histories of messages, squashings, flushes and failures from the start of the process.", "why_tests_cant": "The law relates five counters that are updated in different functions, under all failures.", "anchors": ["src/sync/metrics.rs: SyncWriterMetrics", "src/sync/writer.rs: enqueue_sync, physical_squashing, flush_syncs"]}
{"id": "C129", "title": "The age gauge shows the oldest pending change", "statement": "seafowl_changeset_writer_in_memory_oldest_timestamp_seconds is the time at which the oldest pending table received its first pending change, and 0 when nothing is pending.", "quantifier": "All histories of messages, ticks, successful and failing flushes, with a clock that is not set back.", "why_tests_cant": "The gauge is set at two places only; which paths bypass them depends on which of several tables fails to flush.", "anchors": ["src/sync/writer.rs: enqueue_sync, flush", "src/sync/metrics.rs: SyncWriterMetrics"]}
{"id": "C130", "title": "The sequence gauges show the sequence numbers of the replies", "statement": "For every origin the gauges seafowl_changeset_writer_sequence_memory_bytes and _durable_bytes show the two sequence numbers that a reply to this origin contains.", "quantifier": "All histories and all sequence numbers (64 bit).", "why_tests_cant": "Gauges are floats; tests use small numbers.", "anchors": ["src/sync/metrics.rs: sequence_durable, sequence_memory", "src/sync/writer.rs: enqueue_sync, flush_syncs"]}
{"id": "C131", "title": "The cache directory holds no forgotten files", "statement": "Every file in the cache directory belongs to an entry of the cache, is being written, or is about to be removed; when nothing is under way, each file belongs to an entry.", "quantifier": "All histories of reads, writes to the cache directory that succeed or fail at any point, evictions and removals.", "why_tests_cant": "Leftovers depend on where a write fails and on how it overlaps with evictions.", "anchors": ["src/object_store/cache.rs: CachingObjectStore::cache_chunk_data, on_evict, CacheFileManager::write_file"]}
{"id": "C132", "title": "A cached range is served without the underlying store", "statement": "If all chunks of a range are held by the cache, reading the range sends no request to the underlying store and succeeds even if the store cannot be reached, with the right bytes.", "quantifier": "All states, ranges and chunk sizes, and everything that other reads and writers do meanwhile, as long as nothing leaves the cache.", "why_tests_cant": "Needs all layouts of the chunks in memory and on disk and all schedules of other reads.", "anchors": ["src/object_store/cache.rs: get_range, get_chunk_range, get_range_inner"]}
{"id": "C133", "title": "A read fetches exactly the chunks it lacks, each once", "statement": "A read that runs by itself requests every chunk of its range that the cache does not hold exactly once, and nothing else; a range of which nothing is cached is fetched with a single request.", "quantifier": "All ranges within an object, all chunk sizes and all contents of the cache, including entries whose file is gone.", "why_tests_cant": "Batching depends on the pattern of held and missing chunks, of which there are exponentially many.", "anchors": ["src/object_store/cache.rs: get_chunk_range, get_range"]}
{"id": "C134", "title": "A lost cache file is replaced", "statement": "If the file of a cached chunk is gone, the next read that fetches the chunk puts it into the cache again, so that later reads are served from the cache.", "quantifier": "All histories of reads, evictions, removals and write tasks.", "why_tests_cant": "It takes a particular order of eviction, read and removal to lose a file, and tests look at one read.", "anchors": ["src/object_store/cache.rs: get_chunk_range, cache_chunk_data, on_evict"]}
{"id": "C135", "title": "The cache stays within its capacity", "statement": "The bytes of all entries of the cache do not exceed the configured capacity, given that the cache library keeps the sum of the weights within it.", "quantifier": "All capacities, chunk sizes and histories.", "why_tests_cant": "The weights are 32 bit numbers; tests use small chunks.", "anchors": ["src/object_store/cache.rs: CachingObjectStore::new (weigher), CacheValue::size"]}
{"id": "C136", "title": "Columns of every type can be synchronised", "statement": "A sync message that describes each of its columns is accepted whatever the types of the columns are, every column is treated according to its own descriptor, and the message can be written to a table with columns of any type.", "quantifier": "All messages and all tables, with types nested to any depth.", "why_tests_cant": "Tests use columns of plain types; what goes wrong depends on where nested columns are and what is inside them.", "anchors": ["src/sync/schema/mod.rs: SyncSchema::try_new", "src/sync/planner.rs: apply_syncs"]}
{"id": "C137", "title": "A message that is accepted can be written, whatever its columns are called", "statement": "If a sync message is accepted for a table that has its key columns, flushing it succeeds, and each column of the table gets the values of the field that is described as its value (where its flag says so), keys get the new key, and other columns are kept.", "quantifier": "All accepted messages, all names of fields and columns, all tables.", "why_tests_cant": "Tests use short lower-case names; the effect depends on how every single name is read again from a string.", "anchors": ["src/sync/schema/mod.rs: SyncSchema::try_new, column, canonical_field_name", "src/sync/planner.rs: normalize_syncs, apply_syncs, prune_partitions", "src/sync/utils.rs: squash_batches, construct_qualifier"]}
{"id": "C138", "title": "Every HTTP request is counted as what it was", "statement": "The request counter of the HTTP frontend has, for each request, one count under the method, the route (query, upload, health check) and the status of the answer that the client got.", "quantifier": "all requests (paths, methods, tokens, bodies), access policies and hash functions", "why_tests_cant": "the label is derived from the text of the path and the status from the inner filters: every path and every reason for a refusal matters", "anchors": ["src/frontend/http.rs: filters, with_auth, cached_read_query_authz", "src/frontend/http_utils.rs: handle_rejection, ApiError"]}
{"id": "C139", "title": "Clients cannot make the metrics grow without bound", "statement": "The number of time series of the request counters is bounded by the routes of the server, whatever requests clients send.", "quantifier": "all sequences of HTTP requests and gRPC calls", "why_tests_cant": "a bound over all sequences of requests", "anchors": ["src/frontend/http.rs: filters", "src/frontend/flight/metrics.rs: MetricsService::call"]}
{"id": "C140", "title": "Every Flight call is counted with its outcome", "statement": "The request counter of the Flight frontend has one count for each call, under the status code that the client got.", "quantifier": "all calls and all ways in which they can end", "why_tests_cant": "streams may fail after any number of batches", "anchors": ["src/frontend/flight/metrics.rs: MetricsService::call", "src/frontend/flight/sql.rs: do_get_statement, get_flight_info_fallback"]}
{"id": "C141", "title": "The status of a Flight answer tells whose fault an error is", "statement": "A Flight call that fails because of what the client sent is answered with a status that says so, one that fails because of the server with one that says that, and every call is answered.", "quantifier": "all calls and all errors", "why_tests_cant": "all kinds of errors at all places", "anchors": ["src/frontend/flight/sql.rs: get_flight_info_statement, get_flight_info_fallback, do_get_statement, do_put_fallback", "src/sync/mod.rs: SyncError"]}
{"id": "C142", "title": "Results that nobody fetches are given up", "statement": "The results of queries that clients start over Flight and never fetch do not pile up in the server.", "quantifier": "all histories of queries and fetches", "why_tests_cant": "the growth shows only over unbounded histories", "anchors": ["src/frontend/flight/handler.rs: query_to_stream, fetch_stream"]}
{"id": "C143", "title": "system.table_versions lists exactly the recorded versions of the database", "statement": "A query of system.table_versions in a database returns one row for every recorded version of every table of that database, and no others: created tables appear with the number 0, each write adds one row, renaming moves the rows, dropping a table, a schema or the database removes them, VACUUM leaves one, and nothing done in another database changes them.", "quantifier": "all histories of operations on the catalog, with crashes, and all databases", "why_tests_cant": "all histories", "anchors": ["src/system_tables.rs: TableVersionsTable", "src/repository/default.rs: get_all_versions"]}
{"id": "C144", "title": "system.dropped_tables shows what the cleanup did", "statement": "A cleanup removes from system.dropped_tables exactly the tables whose files it deleted, does not touch those of other databases, and shows for the others whether it will try again or has given up.", "quantifier": "all contents of the table, all histories of cleanups and all failures of the object store", "why_tests_cant": "failure histories", "anchors": ["src/utils.rs: gc_databases", "src/repository/default.rs: update_dropped_table, delete_dropped_table, get_dropped_tables", "src/repository/interface.rs: DroppedTableDeletionStatus", "migrations/sqlite/20230221081928_delta_lake_integration.up.sql"]}
{"id": "C145", "title": "A table created from a query holds the result of the query", "statement": "CREATE TABLE AS either reports success and the new table has the columns and rows of the query, in the same order and with the same meaning, or it reports an error and there is no such table.", "quantifier": "all queries, with all column types and values, failures while planning and running, and all existing tables", "why_tests_cant": "all types and values", "anchors": ["src/context/physical.rs: CreateMemoryTable, coerce_plan, file_to_table", "src/context/delta.rs: create_delta_table, plan_to_delta_table"]}
{"id": "C146", "title": "DELETE removes exactly the rows that its condition selects, whatever its form", "statement": "DELETE FROM t WHERE condition removes the rows for which the condition is true and no others, and UPDATE changes exactly those, also if the condition is constant or asks a subquery; a form that is not supported is refused and the table stays as it is.", "quantifier": "all conditions built from constants, conditions on the row, subqueries, AND, OR and NOT, all tables and layouts of their rows over files", "why_tests_cant": "all forms of conditions and all tables", "anchors": ["src/context/logical.rs: create_logical_plan_from_statement", "src/context/physical.rs: create_physical_plan (WriteOp::Delete, WriteOp::Update)"]}
{"id": "C147", "title": "UPDATE with FROM is honoured or refused", "statement": "UPDATE t SET ... FROM u WHERE ... gives each row of t for which there are matching rows of u the values of the expressions for such rows and leaves the other rows, or it is refused and the table stays as it is.", "quantifier": "all target tables, all tables in FROM with their contents and names, all conditions and assignments", "why_tests_cant": "all statements and contents", "anchors": ["src/context/logical.rs: create_logical_plan_from_statement", "src/context/physical.rs: create_physical_plan (WriteOp::Update)", "src/provider.rs: project_expressions"]}
{"id": "C148", "title": "A successful INSERT into an Iceberg table adds to the table that it names", "statement": "After an INSERT into an Iceberg table reports success the table holds its previous rows and the inserted ones, and queries of the table return them; if the rows do not fit the columns of the table the statement is refused and nothing changes.", "quantifier": "all tables, with and without a version hint, all metadata files they may be registered with, all rows", "why_tests_cant": "all layouts of metadata that other programs write", "anchors": ["src/context/iceberg.rs: record_batches_to_iceberg, plan_to_iceberg_table", "src/catalog/metastore.rs: build_table"]}
{"id": "C149", "title": "INSERT into an Iceberg table keeps what other programs recorded", "statement": "The metadata that an INSERT writes keep all snapshots, schemas and partition specs, describe the new data by the current schema and the partition spec of the table, and name the snapshot they build on, so that the table stays readable by this and other programs.", "quantifier": "all valid metadata: any number of schemas, specs and snapshots, and all inserts", "why_tests_cant": "all histories of schema changes", "anchors": ["src/context/iceberg.rs: record_batches_to_iceberg, update_metadata_snapshot, is_schema_aligned, assign_field_ids, create_empty_metadata"]}
{"id": "C150", "title": "Statements that write to one table at the same time behave as if executed one after the other", "statement": "Whatever the schedule, the table holds what the statements that reported success would have made of it had they been executed one after the other, in an order in which a statement that finished before another began comes first; a statement that fails because of a conflict changes nothing.", "quantifier": "all programs of INSERT, INSERT ... SELECT, DELETE, TRUNCATE and UPDATE statements, all schedules of their reads and commits, all prunings of files", "why_tests_cant": "all interleavings of any number of statements", "anchors": ["src/context/physical.rs: create_physical_plan (Update, Delete, Truncate)", "src/context/delta.rs: plan_to_delta_table, commit_delta_table"]}
{"id": "C151", "title": "A query reads a state of the database", "statement": "A query finds the tables that are there when it begins, reads one version of each, sees every write that had finished when it began, and what it reads of several tables existed at one moment.", "quantifier": "all histories of creations, drops, commits and other statements of the same session, interleaved in any way with the planning of the query", "why_tests_cant": "all interleavings", "anchors": ["src/context/mod.rs: reload_schema", "src/catalog/metastore.rs: build_catalog", "src/provider.rs: SeafowlSchema::table"]}
{"id": "C152", "title": "VACUUM deletes what is not needed any more, and nothing else", "statement": "VACUUM TABLE deletes the files that the newest version of the table does not need, never one that the newest version or a running write needs; the versions that system.table_versions still lists afterwards can be read.", "quantifier": "all interleavings of any number of writes, TRUNCATEs and VACUUMs of a table, each of which may stop at any step", "why_tests_cant": "all interleavings and crash points", "anchors": ["src/context/physical.rs: SeafowlExtensionNode::Vacuum, SeafowlExtensionNode::Truncate", "src/repository/default.rs: delete_old_versions, create_new_version"]}
{"id": "C153", "title": "A new version keeps what the catalog of an older one records", "statement": "Starting a server on a catalog that an older version has written keeps its tables, versions and columns with their names, types and locations, brings it to the form that this version writes, and leaves a catalog that is already in that form alone. An upgrade that is interrupted can be repeated. A catalog of a later version is refused.", "quantifier": "all catalogs of all earlier versions, and all sequences of starts each interrupted at any point", "why_tests_cant": "all catalogs and crash points", "anchors": ["src/repository/default.rs: setup", "migrations/sqlite", "migrations/postgres"]}
{"id": "C154", "title": "The files of a write reach the store whole before the log names them", "statement": "A write names its files in the log of the table only when all of them are in the object store with their full content and recorded size, and names all of them or none. A file that can be seen in the store is whole. A statement that fails, is cancelled or is cut off leaves no files behind, neither in the store nor in the temporary directory. At most the fixed number of files is uploaded at the same time, and a write without errors gets to its commit.", "quantifier": "all numbers and contents of files, all interleavings of the uploading tasks, all failures of single requests, cancellations and points at which the process stops", "why_tests_cant": "all interleavings and crash points", "anchors": ["src/context/delta.rs: plan_to_delta_adds", "src/object_store/utils.rs: fast_upload"]}
{"id": "C155", "title": "A column of a remote table is the remote column of that name", "statement": "A scan of a remote table returns, for each row that the filters keep and up to the limit, under each requested column the value of the remote column with the same name, converted to the declared type; a declared column that the remote table does not have, or a NULL in a column declared NOT NULL, is an error. Columns that are not declared are found out when the table is created.", "quantifier": "all remote tables, declared columns, projections, filters and limits", "why_tests_cant": "all schemas, projections and rows", "anchors": ["datafusion_remote_tables/src/provider.rs: scan, new"]}
{"id": "C156", "title": "A server that is asked to stop finishes its work", "statement": "When the server is asked to stop it takes no more requests, finishes those that are running if they need no more than five seconds, makes durable what sync clients have sent, and ends without an error, at the latest when the time is up.", "quantifier": "all sets of frontends, with and without garbage collection, all histories of requests, changes, flushes, signals, failures and passing time", "why_tests_cant": "all histories and moments", "anchors": ["src/main.rs: main", "src/frontend/flight/mod.rs: run_flight_server", "src/sync/mod.rs: flush_task", "src/frontend/postgres.rs: run_pg_server"]}
{"id": "C157", "title": "Servers with different catalog schemas do not meet", "statement": "Servers that keep their catalogs in one PostgreSQL database share a catalog exactly if their configurations name the same schema; a server with any name starts, and finds its catalog again after a restart or after a crash while starting.", "quantifier": "all names, all numbers of servers, all histories of starts, crashes, stops, connections of the pool and catalog operations", "why_tests_cant": "all names and histories", "anchors": ["src/repository/postgres.rs: PostgresRepository::try_new, PostgresRepository::connect", "src/config/schema.rs: Postgres"]}
{"id": "C158", "title": "A timestamp of a query denotes the time that it says", "statement": "The timestamp in FROM t('\u2026') denotes the moment that it says, whichever of the accepted forms (RFC 3339, RFC 2822, date and time with or without an offset) it is written in; a moment that there is not, or one with a wrong weekday, is refused.", "quantifier": "all moments of the years 0 to 9999, all offsets, all fractions and all accepted forms", "why_tests_cant": "all texts", "anchors": ["src/version.rs: TableVersionProcessor::version_to_datetime"]}
{"id": "C159", "title": "Functions speak MessagePack", "statement": "A MessagePack function receives each row's arguments as a MessagePack list and may answer with any MessagePack encoding of its result: the result column then has in each row the value that the function computed for that row. What is not MessagePack is an error.", "quantifier": "all values, all encodings that the format allows, all modules and batches", "why_tests_cant": "all encodings, modules and batches", "anchors": ["src/wasm_udf/wasm.rs: write_udf_input, read_udf_output, messagepack_encode_input_value, messagepack_decode_results"]}
{"id": "C160", "title": "The metrics of the range cache add up", "statement": "The counters of the range cache account for what it does: every read is counted once with its length, the bytes that reads return are counted as hits in memory, hits on disk or downloads, nothing but the rest of the chunks at both ends of a read is counted in addition, downloads are the bytes of the answers of the store, and neither what is written to disk nor what is evicted exceeds what was downloaded.", "quantifier": "all histories of reads, write tasks, evictions and changes of objects, all chunk sizes", "why_tests_cant": "all interleavings of reads and background tasks", "anchors": ["src/object_store/cache.rs: CachingObjectStoreMetrics, get_range, get_chunk_range, get_range_inner, read_file, write_file, on_evict"]}
{"id": "C161", "title": "Calls to the object store are counted", "statement": "Every call that goes to the object store is counted once in seafowl_object_store_requests_total, under the name of the operation and with the status success or error, according to how it ended.", "quantifier": "all sequences of calls and all ways they end", "why_tests_cant": "all sequences of calls and outcomes", "anchors": ["src/object_store/cache.rs: log_object_store_outbound_request, put_opts, put_multipart, put_multipart_opts, get_opts, head, delete, delete_stream, list, list_with_delimiter, copy, copy_if_not_exists"]}
{"id": "C162", "title": "Queries keep to the configured memory", "statement": "With runtime.max_memory set, the memory that operators of all queries together have reserved never exceeds seven tenths of that many mebibytes, and a reservation that fits is granted; without the setting every reservation is granted.", "quantifier": "all values of the setting, all interleavings of reservations and releases", "why_tests_cant": "all interleavings and all sizes; rounding of floating point numbers", "anchors": ["src/config/context.rs: build_context", "src/config/schema.rs: MEMORY_FRACTION, MEBIBYTES, validate_config", "src/memory_pool.rs: MemoryPoolMetrics"]}
{"id": "C163", "title": "Uploads are answered according to their length", "statement": "On both paths of uploads, a client that may write is answered 413 if the body is longer than the limit (C123), 411 if its length is not given, and by what the upload comes to otherwise; the limit holds for builds with and without overflow checks.", "quantifier": "all values of the setting, all lengths, all paths of uploads and all clients that may write", "why_tests_cant": "all lengths and settings", "anchors": ["src/frontend/http.rs: filters, upload", "src/config/schema.rs: HttpFrontend"]}
{"id": "C164", "title": "Cleaning up dropped tables leaves nothing behind and touches nothing else", "statement": "The clean-up of dropped tables (in the background or by VACUUM DATABASE) never deletes an object of a table that is not dropped; when a dropped table is not listed in system.dropped_tables any more all of its objects are gone; and as long as the store works no table is given up.", "quantifier": "all sets of objects and dropped tables, all interleavings of any number of clean-ups with each other, with writers and with DROP TABLE, all crash points and all answers of the object store", "why_tests_cant": "all interleavings, crash points and errors of the store", "anchors": ["src/utils.rs: gc_databases", "src/main.rs: main", "src/context/physical.rs: create_physical_plan", "src/object_store/wrapped.rs: delete_in_prefix", "src/repository/default.rs: get_dropped_tables, update_dropped_table, delete_dropped_table"]}
{"id": "C165", "title": "An HTTP cache in front of the server answers as the server does", "statement": "When a CDN, proxy or browser caches the answers of GET /[database]/q/[query or hash] the way HTTP lays down, a request gets data only if its token lets its sender read, the data is what the server answers to that request now or less than the configured max-age ago, errors are not answered from the cache, and a configuration with private keeps shared caches out.", "quantifier": "all histories of requests with any URLs, headers and bodies, changes of data, restarts with other settings and passing time, all Cache-Control settings, all caches that follow RFC 9111 with or without heeding Vary", "why_tests_cant": "what a cache answers depends on the whole history of requests of all clients and on when the data changed", "anchors": ["src/frontend/http.rs: cached_read_query, cached_read_query_authz, plan_to_etag, VARY, filters", "src/config/schema.rs: HttpFrontend"]}
{"id": "C166", "title": "The gauges of the range cache show what is cached", "statement": "seafowl_object_store_cache_usage_bytes is the total length of the chunks that are cached, and seafowl_object_store_cache_capacity_bytes is how much may be cached.", "quantifier": "all histories of reads, of files that can and cannot be written, of evictions because of age or capacity and of opened caches, for any number of caches and chunks", "why_tests_cant": "evictions and background writes interleave with reads in ways that a test does not control, and the gauge depends on their order", "anchors": ["src/object_store/cache.rs: CachingObjectStoreMetrics, CachingObjectStore::new, on_evict, cache_chunk_data", "src/object_store/factory.rs: get_log_store_for_table"]}
{"id": "C167", "title": "Web pages of any origin can use the HTTP API", "statement": "A web page of any origin that makes a request to the HTTP API from a browser sees the status and headers that any other client would see.", "quantifier": "all requests, tokens, access policies, sets of headers that a page sets and headers of the answer", "why_tests_cant": "tests send requests without a browser, so the preflight request and the check of the answer's headers never happen; which refusals lack the headers depends on the order of filters for each kind of request", "anchors": ["src/frontend/http.rs: filters, handle_rejection, CORS_MAXAGE", "src/auth.rs: token_to_principal"]}
{"id": "C168", "title": "The schema of a result can be read from its Content-Type", "statement": "Every result of a query over HTTP has the Content-Type application/json with a parameter arrow-schema, from which a client gets back the schema of the result, whatever its columns are called; no column name can end the header or add another one, and requests that end with a write have no such header.", "quantifier": "all schemas, column names with any bytes and requests with any number of statements", "why_tests_cant": "column names are chosen by users and may have quotes, line breaks, semicolons and text that looks like the parameter; tests try a few", "anchors": ["src/frontend/http.rs: content_type_with_schema, cached_read_query, uncached_read_write_query", "src/testutils.rs: schema_from_header"]}
