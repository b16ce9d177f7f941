# Formal model of splitgraph/seafowl in Rocq (Coq 8.16.1)

## 1. Trusted base

* Coq's kernel (8.16.1), including `vm_compute` (used in examples and in concrete counterexamples).
* The axioms reported by `Print Assumptions`, which follows every property theorem. The aim is
  "Closed under the global context" everywhere. Any standard library axiom in use is listed in section 6.
* The correspondence between the Gallina definitions and the Rust code. Each definition
  cites the file and lines it models and says where it simplifies. Nothing was executed: the code was
  read as text.
* The behaviour of third-party components is not modelled in detail. It enters as (a) explicit parameters
  of definitions and theorems (hash functions, squash sizes, clock readings, object store outcomes) or
  (b) a small executable semantics stated in the model (SQL full join, three-valued logic, put-if-absent).

No axioms, no `Admitted`, no functors, no plugins.

## 2. Layout (`rocq/theories`)

For each area `X` there are up to four files:

* `XModel.v`: the code, function by function, with line citations;
* `XSpec.v`: the small independent specification used in the theorem statements;
* `XProofs.v`: lemmas and invariants (may be split further);
* `XProps.v`: only the property theorems, each closed by `exact`, an `Example` that a
  concrete non-trivial instance satisfies the hypotheses, and `Print Assumptions`.

Naming: a theorem `cnn_...` states (part of) property Cnn of `properties.jsonl`; MANIFEST.json lists them.
`..._partial` proves part of the property (the conditions in its statement say which part is missing).
`..._refuted` proves that the faithful model violates the property, by a reachable counterexample or,
where possible, for a whole class of inputs. These are findings about the code. They are paired with
theorems for the cases in which the property does hold, where there are any.

## 3. What is modelled, per property, and how it is proved

| property | modelled code | model idea | proof |
|---|---|---|---|
| C01-C10 | `sync/writer.rs`, `process_sync_cmd` | state machine `step : state -> event -> state * outputs`; events carry oracles (clock, squash results, flush outcome incl. commit-then-error); batches carry provenance | invariants by induction over event lists |
| C11-C13 | `squash_batches` | executable function over rows with (role, name) columns, chains, index arrays | loop invariant relating chains to the sequential map semantics |
| C14-C17 | `planner.rs`, `schema/{merge,join,union}.rs` | deep embedding of the projection expressions, executable full join / union / unnest | sequential map semantics = join semantics, by lemmas on the normal form of squashed streams; counterexamples by computation |
| C18, C21 | `SyncSchema::try_new`, `is_compatible_with` | executable | direct; counterexample |
| C19 | `construct_qualifier`, `get_prune_map`, `prune_partitions` | min/max accumulators and Kleene logic over total orders, stats may be missing | soundness by induction over syncs and files |
| C20 | composition of the above | replay of a suffix | induction; counterexample with squashed chains |
| C22-C25 | `object_store/cache.rs` | cache as key->value map, disk as path->bytes; events for eviction, completed/failed writes | invariant "every cached value is the object's chunk"; counterexamples |
| C26-C28 | `plan_to_delta_adds` | loops over batches; read/upload loop over an arbitrary short-read schedule | induction |
| C29-C31 | `create_physical_plan` DML arms, `project_expressions` | tables as lists of files, three-valued predicates, file selection oracle that covers all matching files | induction over files; counterexample for NULL predicates |
| C32 | `object_store/wrapped.rs` | object store as a map with put / put-if-absent / rename per configuration | invariant over interleavings; counterexample |
| C33-C34 | `record_batches_to_iceberg` | small-step interleaving of any number of writers with crash | invariant; counterexample |
| C35-C39 | `auth.rs`, `http.rs`, `logical.rs` | executable policy, statement/plan classification, ETag byte encoding, percent coding | case analysis / injectivity; counterexamples |
| C40 | Flight handler ticket map | map with remove-on-read | invariant over histories |
| C41-C50, C66 | `repository/default.rs`, `catalog/repository.rs`, DDL arms | relational catalog state with constraints and cascades, multi-step operations with crash points | invariants over histories; counterexamples |
| C51 | `file_to_table` | name resolution | counterexample + conditional theorem |
| C52 | `gc_databases` | status machine; with the updates that the database refuses in `SysModel` | induction over histories of cleanups; conditional theorem |
| C53 | `version.rs`, `rewrite_time_travel_query` | name rewriting and version resolution | counterexample + conditional theorem |
| C54 | `parser.rs` statement loop | token stream with abstract statement parsers | induction; counterexample for COPY |
| C55 | `make_decimal_type` | machine integer casts | arithmetic; counterexample |
| C56-C57 | `filter_pushdown.rs` | printer as in the code, standard-precedence parser as specification | round trip by induction for the safe fragment; counterexamples |
| C58-C60 | `wasm_udf/wasm.rs` | value encodings, guest memory writes, broadcasting | arithmetic and induction; counterexamples |
| C61, C62, C91 | `config/schema.rs` validation and access settings, `main.rs` clean-up interval | executable, machine integers | case analysis and arithmetic; counterexamples |
| C63, C92 | `object_store/factory.rs` cache of stores | transition system of overlapping requests, any hash function, any order of options | invariant over schedules; counterexample for overlapping requests |
| C64, C95, C96, C97 | `object_store/http.rs` | replies of a server as a parameter, texts of headers byte by byte, URL encoding and decoding, shared chunk cache | round trips by induction on digits and texts; RFC 7233 server as specification; counterexamples |
| C65 | `memory_pool.rs` | interleaving of calls, each in four atomic steps | invariant over schedules; counterexamples |
| C67, C68 | `squash_batches`, `join.rs` | as C11-C17 | counterexamples and conditional theorems |
| C69 | `context/iceberg.rs` schema check | executable | case analysis |
| C70, C71 | `frontend/http.rs` POST and cached GET | executable over statement lists | induction over statements |
| C72 | `repository/default.rs` create_new_version | relational catalog state | direct |
| C73-C78 | DDL and DML arms of `context/physical.rs`, `context/delta.rs` | one state: catalog, object store, session; crash points between steps | invariants over histories; counterexamples |
| C79-C82 | `datafusion/parser.rs`, `context/logical.rs` | token stream, clauses | induction over clauses; counterexamples |
| C83-C85 | `datafusion/utils.rs`, `context/logical.rs` | executable translation of column definitions | case analysis; counterexamples |
| C86, C87 | `context/logical.rs`, `version.rs` | schema provider shared by interleaved queries | counterexample; invariant "never another version" |
| C88 | `datafusion_remote_tables/src/provider.rs` | printer of the whole query | round trip through the specification's reader |
| C89, C90 | `wasm_udf/wasm.rs` | creation checks; allocations of guest memory as a multiset | case analysis; balance invariant |
| C93, C94 | `wasm_udf/data_types.rs`, `repository/default.rs`, `catalog/metastore.rs` | JSON documents, derived (de)serialisers | round trip by cases and induction |
| C98-C101 | `object_store_factory`, `prepare_create_external_table` | option maps as lists in any order, environment, resulting store as a record | invariance under permutation, induction; counterexamples |
| C102, C103 | `sync/writer.rs` queue by URL, `get_log_store_for_table`, `root_uri.join`, `Path::from` | texts of URLs and paths byte by byte; interleaving of commands and flushes | invariant over histories; induction over segments; counterexamples |
| C104-C107 | `catalog/metastore.rs`, `provider.rs`, `system_tables.rs`, `context/mod.rs` | listing to catalog to lookup; sessions shared by interleaved queries; staging schema | induction over listings and schedules; counterexamples |
| C108 | `process_sync_cmd` flag | atomic load and store, interleaved commands, restarts | invariants over schedules; counterexamples |
| C109 | `exec_and_print`, `run_one_off_command` | plan all then run all, against plan and run one by one, over an engine with files on disk | induction on lists with an invariant on file numbers; counterexamples |
| C110 | `command_loop`, `Command::from_str`, `validate_input` | texts as lists of characters, words, semicolons, quotes | induction on texts; counterexamples |
| C111 | `PostgresBackend` | prepared statements and portals over the same engine | case analysis; counterexample for every number of executions |
| C112, C113 | `load_config`, the structs of `config/schema.rs` | settings as paths with values, the environment as texts, conversions of crate `config` as parameters | a table of all settings, case analysis over it; counterexamples for every setting |
| C114 | `main.rs` choice of the file | directory as a list of files | case analysis; counterexample for every directory |
| C115 | `build_context` default database and schema | transition system of several servers with failures | invariant by induction over schedules; counterexamples for every catalog |
| C116 | `batch_to_json` (JSON lines as arrow-json and serde_json write them) | printer; independent reader of JSON lines | round trip by induction over texts, fields and rows; counterexamples for every row |
| C117 | `plan_to_response`, the GET and POST answers | functions from streams of batches and errors to responses | case analysis over all streams; counterexamples for every stream that fails |
| C118 | `status_code_body` | function from errors to codes | case analysis; counterexamples for all server faults |
| C119 | routes in `filters` | function from paths to routes; independent URL encoder | induction over names; counterexamples for every name that needs encoding |
| C120 | `file_to_table` (columns and rows), arrow-csv, schema adapter of DataFusion | executable over records; crates as parameters | equivalence with a declarative meaning of records by induction; counterexamples for every file |
| C121 | `upload` (form) | fold over parts | commutation of parts, induction over permutations; counterexamples for every form |
| C122 | `upload`, `file_to_table` (order of effects) | executable | case analysis; counterexamples for every file that does not fit |
| C123 | limit of the body | u64 arithmetic | arithmetic; counterexamples |
| C124 | statements on catalogs managed elsewhere | sessions with a catalog that only lists, lake of directories with files, log and tombstones | case analysis, induction over retries; universal counterexamples |
| C125 | where writes to such tables go | places (store, directory), UUIDs read from names | case analysis; universal counterexamples |
| C126 | one synchronised table from messages to files | queue, squashing, flush as events in any order; refinement to the change stream | invariant over histories; witness for the failure |
| C127 | metrics of the sync writer beside its queue | gauges as integers, updated by every function of the writer model | invariant over histories: bytes equal, rows off by twice what was squashed away |
| C128 | the same counters | conservation law with ghosts for growth | same invariant; monotonicity by induction over the flush loop |
| C129 | the age gauge, monotone clock | set by enqueue and by flushes that end well | queue sorted by insertion time; witness with two tables |
| C130 | sequence gauges as 64 bit floats | rounding to nearest on integers | gauges against replies; nearest-float theorem; parity argument |
| C131 | files of the cache directory against entries, tasks and pending removals | the transition system of C22 | invariant over histories; witness and invariant of a forgotten file |
| C132 | reads of held chunks | as C22, requests made explicit in `FetchModel.v` | invariant of one read in any schedule |
| C133 | requests of a read | `requests`, tied to the steps of the read by `c133_requests_are_real` | conservation law: chunks still to be requested |
| C134 | entries without their file | as C22 | invariants in both directions; `orderly` histories |
| C135 | sizes and 32 bit weights of entries | weigher of the cache; the library's bound is a hypothesis | size invariant; arithmetic modulo 2^32 |
| C136 | sync messages and tables with nested types | `try_new` with `flattened_fields`, the projection of `apply_syncs` | counting flattened fields; permutation of flattened fields; positions |
| C137 | resolution of all names of one message while it is written | `squash_batches` (keys, flags), qualifier, `normalize_syncs`, join and projection of `apply_syncs`, with the reading of names by `col()`; the parser of names that are no plain identifiers is a parameter | uniqueness of names through the stages; universal failures |
| C138 | label and status of every counted HTTP request | the four routes as filters with warp's rejections (`combine`, `preferred`, `find`), `with_auth`, `cached_read_query_authz`, the log filter before `recover`, `str::contains`; statuses of handlers are parameters | case analysis over routes; segments of paths by induction; refuted for every request that is turned away |
| C139 | number of labels over all sequences of requests | the label of HTTP and gRPC requests | label of every known route; n unknown paths with n labels |
| C140 | code counted and code seen for every call | the handlers of Flight up to their status, headers and trailers of tonic, the metrics layer | case analysis; totals by induction over calls |
| C141 | code seen and whose fault it was | as C140, errors of engine and sync | case analysis |
| C142 | results kept after every history | the Flight part of HttpModel.v | induction over histories |
| C143 | `get_all_versions`, `TableVersionsTable` | the joins over the catalog of `CatalogModel` | equivalence with the versions of the catalog; effect of every operation from `CatalogEffects` |
| C144 | `gc_databases`, `update_dropped_table`, `DroppedTableDeletionStatus`, the CHECK constraint | cleanups as a fold over the table; the written form of the status is a parameter | characterisation of the rows that remain; universal refutations |
| C145 | CREATE TABLE AS, `coerce_plan`, `create_delta_table`, `plan_to_delta_table` | types with nesting, values as counts of units, queries that fail when planned or when run | cell by cell comparison with the query; universal refutations |
| C146 | DELETE and UPDATE from the statement to the executed plan (`logical.rs` 107-163, `physical.rs` 216-485) | conditions as trees, the optimizer rules that decide about the Filter node (DataFusion, stated in DmlModel.v), execution from WriteModel.v | value-preserving folding, reduction to C29/C30; universal refutations |
| C147 | UPDATE with FROM (`logical.rs` 120-157, `physical.rs` 229-300, `provider.rs` 142-179) | tables with schema and name, expressions with qualified columns, resolution against the bare name of the target | agreement of physical and SQL evaluation for expressions over the target; refutations |
| C148 | `record_batches_to_iceberg`, registration of Iceberg tables (`metastore.rs` 209-247) | a directory of metadata files with a version hint, tables registered with one file | content of a table as a relation; universal refutations |
| C149 | the metadata that an insert writes (`iceberg.rs` 54-384) | schemas, specs, snapshots, data files with field ids; the scan of iceberg-rust as in its documentation | invariant of valid metadata; universal refutations |
| C150 | DELETE, UPDATE, TRUNCATE and INSERT of one table by concurrent sessions (`physical.rs` 216-485, `delta.rs` 383-442), conflict check of delta-rs | events Begin and Commit, versions with the files they add and remove | rows tagged with the INSERT they come from, lineage of rows through rewrites, construction of the order by induction over the versions; universal refutations |
| C151 | `reload_schema`, `build_catalog`, `SeafowlSchema::table` | a session with a registered catalog whose entries are loaded when looked up; catalog and logs change at any time; reading the catalog and registering it are two steps | invariants over all interleavings; universal refutations |
| C152 | VACUUM TABLE, TRUNCATE, `delete_old_versions`, `create_new_version` | log, data files and recorded versions of one table; writes, truncates and vacuums in steps (load, commit, record; load, delete, forget) that interleave or stop; the vacuum of delta-rs is part of the model | invariants over all interleavings; universal refutations |
| C153 | `setup` of the repository, the migrations | catalog rows whose columns appear migration by migration, texts of types in three forms; a start is a list of actions of which any prefix may happen | induction over interrupted starts; universal refutations |
| C154 | the uploads of `plan_to_delta_adds`, `fast_upload` | one task per file with its phases, a permit count, the temporary directory, the visible objects, the log; events for every request, its failure, cancellation | invariant over all event lists; universal refutations; a constructed continuation for progress |
| C155 | the result side of `RemoteTable::scan` | declared fields, the remote table and its answer to a column list, casts by position as physical expressions; conversions are parameters | position lemmas over lists; universal refutations |
| C156 | the subsystems of `main`, `run_flight_server`, `flush_task` | phases of the program, running requests by frontend, changes in memory; events for requests, flushes, signals, panics and time | invariants over event lists; universal refutations |
| C157 | `PostgresRepository::{try_new, connect}` | schemas of a database, search paths of connections, PostgreSQL's reading of an unquoted name; the operations of CatalogModel.v | invariant: each schema is the fold of its servers' statements; universal refutations |
| C158 | `version_to_datetime` with the parsers of chrono | scanners over texts, Gregorian calendar, offsets | digit lemmas, counting days by induction over the calendar, case by a table of characters |
| C159 | what the host and a MessagePack function exchange | the format as an inductive relation between values and bytes, independent of the writer and reader of `UdfModel` | mutual induction over encodings, inversion of the reader, refinement of C60 to modules specified with the relation |
| C160 | the counters of the range cache | increments per event over the histories of `CacheModel`; sums over the reads that were started | potential functions per reader (bytes held, chunks passed) and per write task, induction over histories |
| C161 | the counter of calls to the store | the operations that are passed on, with their outcomes and labels | case analysis and induction over sequences of calls |
| C162 | the memory limit of queries | `max_memory * MEBIBYTES` with wrap-around or panic, the conversion to f64, the product with 0.7 and the rounding to 53 bits over binary numbers, the pool of `PoolModel` | error bound of the rounding, exactness of multiples of 2^20, invariant over histories of the pool |
| C163 | the limit on uploads | warp's limit on Content-Length in front of the routes of `CountModel` | case analysis over routes, tokens and lengths |
| C164 | cleaning up dropped tables, several at once | `gc_databases` and `delete_in_prefix` as steps (listing, one object at a time, updating or deleting the row) of any number of clean-ups that interleave with each other, crashes, writers and drops | invariants over histories; induction over the tables of an undisturbed clean-up |
| C165 | an HTTP cache in front of the server | the GET route of `HttpModel` (authorisation, query text, ETag, If-None-Match) behind a cache as RFC 9111 describes it: what it stores, which stored answer it selects, freshness, asking again | invariants over histories: every stored answer was given to a sender that may read, and was the server's own answer at the moment of its age |
| C166 | the gauges of the range cache | moka's entries, pending changes of weight and weight of any number of caches; the shared gauges; `new`, `on_evict`, `cache_chunk_data` as separate steps | invariant over histories: weight plus pending changes is the length of the entries |
| C167 | web pages of any origin | the `cors` filter in front of the routes of CountModel.v, with warp's cors filter and the browser's preflight and response check (Fetch standard) written from knowledge, not from /repo | case analysis over routes and header lists |
| C168 | the Content-Type of results | percent encoding, the check of header values and its fallback, which statements get the header; the client of testutils.rs with `str::split` | induction over the text; character classes by cases; the check never fails |

## 4. What is modelled and what is not

Modelled, function by function, with the simplifications stated at each definition: `sync/{writer,planner,utils}.rs`,
`sync/schema/*` (with nested types and names in ColsModel.v), `object_store/{cache,factory,http,wrapped,utils}.rs` (reads, requests and weights of the cache in CacheModel.v and FetchModel.v), `context/{delta,iceberg,logical,physical}.rs`,
`repository/{default,sqlite,postgres,interface}.rs`, `catalog/{mod,repository,metastore,external,memory}.rs`, `frontend/http.rs`, `frontend/flight/{handler,sql,metrics}.rs` (up to statuses),
`auth.rs`, `datafusion/{parser,utils}.rs`, `version.rs`, `provider.rs` (the parts named in the table), `wasm_udf/*`,
`config/{schema,context}.rs` (loading, environment, validation, access, memory pool, default database), `main.rs` (configuration file, clean-up), `utils.rs` (clean-up, one-off commands), `memory_pool.rs`,
`cli/*`, `frontend/postgres.rs`, `system_tables.rs` (names, rows), `context/mod.rs` (sessions),
`datafusion_remote_tables/*`, `object_store_factory/*`.

Not modelled: SQL planning and execution by DataFusion beyond the operators named above, Parquet encoding, Delta log
protocol internals of delta-rs, wasmtime, network protocols (gRPC/warp, except how rejections and statuses become answers in CountModel.v and how the cors filter answers web pages in PageModel.v; both were written from general knowledge of warp 0.3.7, whose source is not in this sandbox, so they are trusted and unchecked), tokio scheduling other than
as arbitrary interleavings of the atomic steps named in the models, floating point arithmetic (except the product that yields the memory limit, in LimitModel.v), Arrow memory layout,
metrics other than those of the memory pool, the requests, the range cache and the sync writer (histograms are not modelled), line editing, logging, test utilities.

Third-party behaviour that a theorem depends on is either a parameter of the theorem or stated as a definition of the
specification or model with a comment that names the crate (for instance `AmazonS3Builder::build`, the text that sqlx's derived `Type` writes for a variant, the message loop of the crate convergence, `GetRange`'s Display,
the precedence levels of the remote databases, SQLite's reading of addresses).

## 5. Wrong-program testing

`seeded/LOG.jsonl` records edits of the model that imitate realistic bugs, the claim that each one breaks, the theorems
whose proofs fail, and the theorems that were added or tightened because an edit was not noticed. An edit is applied in a scratch copy;
proofs that break are removed one after the other, and a property theorem counts as failed if it then depends on a removed
proof. Edits marked "(fix)" repair a defect: there the refutations have to fail.

## 5a. Replaying the project's own tests

The files `*Tests.v` replay the vectors of the Rust unit tests through the models: the same inputs, and the outputs that the
tests expect. They test that the models follow the code; they are examples, not proofs, and no claim of MANIFEST.json rests
on them. They cover the flushing of the data sync, squashing, pruning and merging of rows, the HTTP routes, credentials and
ETags (with an implementation of SHA-256 in `Sha256.v`, the recorded ETags come out exactly), the range cache, the chunking
of written files, the catalog, table locations, time travel and its timestamps, the pushdown of filters, the options of object
stores, the alignment of schemas with Iceberg tables, the configuration, the memory pool and functions in WebAssembly. The integration tests of /repo/tests
for the sync over Flight, for VACUUM, for DDL, CONVERT and TRUNCATE, for DELETE and UPDATE and for inline and remote metastores are
replayed too (`FlightSyncTests.v`, `VacTests.v`, `DdlTests.v`, `DmlTests.v`, `MetaTests.v`). One replay did not agree at first: of several assignments of a column in UPDATE the code takes the
last one, the model took the first. The model, and with it the specification of C147, were corrected. All others agreed.

## 6. Assumptions per theorem

`Print Assumptions` follows every theorem of the `*Props.v` files. For every theorem it prints
"Closed under the global context": no axioms, neither own ones nor the standard library's.

A whole-library check lists `Coq.ssr.ssrunder.Under_rel.*` among the axioms of loaded libraries. These belong to a
sealed module of Coq's standard library that other library files load; no theorem depends on them.
