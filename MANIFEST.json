{
 "claims": [
  {
   "property": "C01",
   "status": "proved",
   "theorems": [
    "c01_durable_means_committed"
   ],
   "note": ""
  },
  {
   "property": "C02",
   "status": "proved",
   "theorems": [
    "c02_reported_from_history",
    "c02_monotone"
   ],
   "note": ""
  },
  {
   "property": "C03",
   "status": "proved",
   "theorems": [
    "c03_refused_exactly",
    "c03_refused_changes_nothing",
    "c03_probe_changes_nothing"
   ],
   "note": ""
  },
  {
   "property": "C04",
   "status": "proved",
   "theorems": [
    "c04_accounting_exact",
    "c04_never_underflows",
    "c04_zero_when_drained"
   ],
   "note": "the subtraction inside two log lines is left out of the model"
  },
  {
   "property": "C05",
   "status": "proved",
   "theorems": [
    "c05_limits_hold",
    "c05_lag_holds"
   ],
   "note": "the size limit is met or nothing is pending (a zero byte limit cannot be met otherwise); the lag part assumes a monotone clock"
  },
  {
   "property": "C06",
   "status": "proved",
   "theorems": [
    "c06_no_bookkeeping_panic"
   ],
   "note": "bookkeeping only; panics inside squash_batches and prune_partitions are treated with C11 and C19"
  },
  {
   "property": "C07",
   "status": "proved",
   "theorems": [
    "c07_committed_then_pending",
    "c07_no_change_twice",
    "c07_nothing_lost_ever",
    "c07_log_is_accepted_messages"
   ],
   "note": "order and absence of duplicates for histories in which no commit takes effect while being reported as failed; nothing is lost in any history"
  },
  {
   "property": "C08",
   "status": "partial",
   "theorems": [
    "c08_complete_becomes_durable_refuted",
    "c08_complete_becomes_durable_partial"
   ],
   "note": "REFUTED: a message without rows that closes an already flushed transaction leaves the durable number behind until the next flush; holds when closing messages carry rows"
  },
  {
   "property": "C09",
   "status": "proved",
   "theorems": [
    "c09_commit_info_never_over_reports",
    "c09_open_transaction_flagged"
   ],
   "note": ""
  },
  {
   "property": "C10",
   "status": "partial",
   "theorems": [
    "c10_failed_flush_changes_nothing",
    "c10_retry_as_if_first_partial",
    "c10_reported_failure_duplicates_refuted"
   ],
   "note": "REFUTED for a commit that takes effect while the call does not complete (the retry commits the changes twice); holds for every other failure point"
  },
  {
   "property": "C11",
   "status": "proved",
   "theorems": [
    "c11_squashing_preserves_effect"
   ],
   "note": ""
  },
  {
   "property": "C12",
   "status": "partial",
   "theorems": [
    "c12_flags_kept_refuted",
    "c12_flags_kept_partial"
   ],
   "note": "REFUTED with two Changed columns (the flag of the first one is used for all); holds when the flags of a row agree, in particular with one Changed column"
  },
  {
   "property": "C13",
   "status": "partial",
   "theorems": [
    "c13_one_change_per_row",
    "c13_no_temporary_rows",
    "c13_cancelling_accepted_refuted",
    "c13_accepted_partial"
   ],
   "note": "one change per old and new key and no temporary rows: proved; REFUTED: a batch that cancels out entirely makes the squashing (with a Changed column) or the flush panic"
  },
  {
   "property": "C14",
   "status": "proved",
   "theorems": [
    "c14_flush_one_by_one",
    "c14_flush_succeeds"
   ],
   "note": "a flush of changes without any effect may panic, see C13"
  },
  {
   "property": "C15",
   "status": "partial",
   "theorems": [
    "c15_composite_keys_refuted",
    "c15_composite_keys_partial"
   ],
   "note": "REFUTED: an update of the second key column leaves the old row behind; holds for key-preserving changes and for keys told apart by their first column"
  },
  {
   "property": "C16",
   "status": "partial",
   "theorems": [
    "c16_partial_updates_refuted",
    "c16_partial_updates_partial"
   ],
   "note": "REFUTED in four ways (key change, delete and insert, merging with change flags, merging three items); the positive theorem gives the conditions under which partial updates are exact"
  },
  {
   "property": "C17",
   "status": "partial",
   "theorems": [
    "c17_other_rows_untouched",
    "c17_other_columns_untouched",
    "c17_moved_row_columns_refuted"
   ],
   "note": "proved for rows that keep their key; REFUTED for a row whose key is changed (unmentioned columns become NULL)"
  },
  {
   "property": "C18",
   "status": "partial",
   "theorems": [
    "c18_same_columns_refuted",
    "c18_same_columns_partial"
   ],
   "note": "REFUTED: schemas are compared up to the shorter one, and additional columns are dropped; holds for schemas with the same number of columns"
  },
  {
   "property": "C19",
   "status": "proved",
   "theorems": [
    "c19_pruning_sound",
    "c19_pruning_sound_any"
   ],
   "note": "the query engine's PruningPredicate is a parameter assumed sound (pp_ok)"
  },
  {
   "property": "C20",
   "status": "partial",
   "theorems": [
    "c20_replay_refuted",
    "c20_replay_partial"
   ],
   "note": "REFUTED: changes that cancel out on the second sending are dropped although the first sending stored a row; holds for inserts and key-preserving updates with full rows"
  },
  {
   "property": "C21",
   "status": "proved",
   "theorems": [
    "c21_schema_validation"
   ],
   "note": ""
  },
  {
   "property": "C67",
   "status": "partial",
   "theorems": [
    "c67_squashing_again_refuted",
    "c67_squashing_again_partial"
   ],
   "note": "REFUTED for updates that change keys (a row is lost); holds for key-preserving streams"
  },
  {
   "property": "C68",
   "status": "partial",
   "theorems": [
    "c68_key_order_refuted",
    "c68_key_order_partial"
   ],
   "note": "REFUTED: key tuples are compared by position; holds when both sides list the key columns in the same order"
  },
  {
   "property": "C22",
   "status": "partial",
   "theorems": [
    "c22_range_reads_partial",
    "c22_no_spurious_failure_partial",
    "c22_reads_finish"
   ],
   "note": "proved for every history in which cache files appear as a whole; reads always finish; half-written cache files break it, see C25"
  },
  {
   "property": "C23",
   "status": "partial",
   "theorems": [
    "c23_later_reads_right_partial",
    "c23_past_end_refuted",
    "c23_repeated_read_refuted",
    "c23_empty_range_refuted"
   ],
   "note": "later reads within the object stay right: proved; REFUTED: the read itself can panic, a repeated one returns too many bytes, and the empty range 0..0 panics"
  },
  {
   "property": "C24",
   "status": "partial",
   "theorems": [
    "c24_overwrite_refuted",
    "c24_delete_refuted",
    "c24_uncached_overwrite_partial"
   ],
   "note": "REFUTED: writes and deletes do not invalidate the cache; holds for objects of which nothing is cached at that time"
  },
  {
   "property": "C25",
   "status": "partial",
   "theorems": [
    "c25_torn_write_refuted",
    "c25_write_race_refuted",
    "c25_failed_write_partial"
   ],
   "note": "REFUTED: a file left by a failed or unfinished write is taken for complete; holds for failed writes that leave no file"
  },
  {
   "property": "C26",
   "status": "proved",
   "theorems": [
    "c26_repartition",
    "c26_total",
    "c26_errors",
    "c26_insert"
   ],
   "note": "rows are abstract; Parquet encoding is left out"
  },
  {
   "property": "C27",
   "status": "partial",
   "theorems": [
    "c27_write_terminates_partial",
    "c27_write_terminates_refuted"
   ],
   "note": "REFUTED: with max_partition_size = 0 the loop never ends; proved for every positive value"
  },
  {
   "property": "C28",
   "status": "proved",
   "theorems": [
    "c28_multipart",
    "c28_failed_read",
    "c28_failed_part",
    "c28_ends"
   ],
   "note": "for every schedule of short reads and failures"
  },
  {
   "property": "C29",
   "status": "partial",
   "theorems": [
    "c29_delete_effect_partial",
    "c29_delete_partial",
    "c29_deleted_gone_partial",
    "c29_other_files_kept_partial",
    "c29_delete_null_refuted",
    "c29_delete_scan_refuted"
   ],
   "note": "REFUTED: rows for which the predicate is NULL are deleted from rewritten files, and rows that a filtered scan may leave out are lost; proved for predicates that are never NULL and scans that yield whole files"
  },
  {
   "property": "C30",
   "status": "partial",
   "theorems": [
    "c30_update_partial",
    "c30_updated_unique",
    "c30_update_scan_refuted"
   ],
   "note": "proved for scans that yield all rows of the rewritten files; REFUTED for scans that use their licence to leave out rows not matching the filter"
  },
  {
   "property": "C31",
   "status": "partial",
   "theorems": [
    "c31_truncate_empties",
    "c31_versions_partial",
    "c31_versions_exist",
    "c31_versions_refuted"
   ],
   "note": "REFUTED: TRUNCATE records no version, nor does a statement after whose commit the server stops; proved for the other histories"
  },
  {
   "property": "C32",
   "status": "partial",
   "theorems": [
    "c32_commits_partial",
    "c32_create_calls_partial",
    "c32_commits_refuted",
    "c32_create_calls_refuted"
   ],
   "note": "proved for every configuration but Local with disable_hardlinks; REFUTED for that one (PutMode::Create becomes Overwrite) and, as to rename_if_not_exists, for S3"
  },
  {
   "property": "C33",
   "status": "proved",
   "theorems": [
    "c33_versions_kept",
    "c33_versions_grow",
    "c33_successful_inserts_stay",
    "c33_hint_monotone",
    "c33_one_per_version"
   ],
   "note": "any number of concurrent inserts, each stopping anywhere; writes of the hint are atomic"
  },
  {
   "property": "C34",
   "status": "partial",
   "theorems": [
    "c34_crash_blocks_refuted",
    "c34_crash_partial"
   ],
   "note": "REFUTED: a stop between the metadata file and the version hint blocks every later insert for ever; proved for all other crash points"
  },
  {
   "property": "C69",
   "status": "proved",
   "theorems": [
    "c69_schema_check",
    "c69_inserts_fit"
   ],
   "note": "column names are not compared by the code"
  },
  {
   "property": "C35",
   "status": "partial",
   "theorems": [
    "c35_granted_exactly",
    "c35_write_off",
    "c35_needs_password",
    "c35_password_accepted",
    "c35_wrong_token_refused",
    "c35_bearer_password_refuted"
   ],
   "note": "exact characterisation proved; REFUTED for configured passwords that begin with 'Bearer ' (the prefix is stripped repeatedly, such a password is never accepted)"
  },
  {
   "property": "C36",
   "status": "partial",
   "theorems": [
    "c36_no_writes_partial",
    "c36_hidden_writes_refuted"
   ],
   "note": "REFUTED: SELECT ... INTO and EXPLAIN ANALYZE INSERT count as reads but write; proved for all other statements, for uploads and for GET"
  },
  {
   "property": "C37",
   "status": "proved",
   "theorems": [
    "c37_get_never_writes",
    "c37_get_plan_refused"
   ],
   "note": "for every plan of the shape SQL planning yields (DML and COPY only at the top or under EXPLAIN [ANALYZE])"
  },
  {
   "property": "C38",
   "status": "partial",
   "theorems": [
    "c38_etag_versions_partial",
    "c38_not_modified_partial",
    "c38_same_versions_same_etag",
    "c38_subqueries_refuted",
    "c38_other_tables_refuted"
   ],
   "note": "REFUTED: tables read in subqueries of expressions, and all tables but Delta tables, do not count; proved for plans without these"
  },
  {
   "property": "C39",
   "status": "proved",
   "theorems": [
    "c39_round_trip",
    "c39_round_trip_any",
    "c39_dot_refuted"
   ],
   "note": "for the stated encoding and every encoding that escapes '%' and '.'; an encoder that leaves '.' alone gets its query cut (c39_dot_refuted)"
  },
  {
   "property": "C40",
   "status": "proved",
   "theorems": [
    "c40_at_most_once",
    "c40_own_stream",
    "c40_first_fetch",
    "c40_later_fetch"
   ],
   "note": "given fresh identifiers"
  },
  {
   "property": "C70",
   "status": "proved",
   "theorems": [
    "c36_in_order",
    "c36_read_is_last",
    "c36_no_writes_partial"
   ],
   "note": ""
  },
  {
   "property": "C71",
   "status": "proved",
   "theorems": [
    "c39_hash_determines_query",
    "c39_hash_accepts"
   ],
   "note": ""
  },
  {
   "property": "C41",
   "status": "proved",
   "theorems": [
    "c41_unique_names",
    "c41_one_name",
    "c41_lookup",
    "c41_create_database",
    "c41_create_schema",
    "c41_create_table"
   ],
   "note": "over all histories of catalog operations, with crashes between the transaction and the columns"
  },
  {
   "property": "C42",
   "status": "proved",
   "theorems": [
    "c42_drop_table",
    "c42_drop_schema",
    "c42_drop_database"
   ],
   "note": ""
  },
  {
   "property": "C43",
   "status": "proved",
   "theorems": [
    "c43_rename",
    "c43_rename_statement"
   ],
   "note": "for the catalog operation and for the statement"
  },
  {
   "property": "C44",
   "status": "partial",
   "theorems": [
    "c44_vacuum",
    "c44_one_newest",
    "c44_keeps_last_partial",
    "c44_clock_refuted"
   ],
   "note": "exactly the newest version by recorded time stays; REFUTED if the clock goes back: the version recorded last, which SQLite takes for the latest, is removed; proved if recorded times do not go back"
  },
  {
   "property": "C48",
   "status": "partial",
   "theorems": [
    "c48_drop_one_partial",
    "c48_drop_only_named",
    "c48_drop_two_refuted"
   ],
   "note": "REFUTED for two or more names: SQLite removes only the first, Postgres refuses the statement; proved for one name"
  },
  {
   "property": "C49",
   "status": "proved",
   "theorems": [
    "c49_create_function"
   ],
   "note": ""
  },
  {
   "property": "C66",
   "status": "proved",
   "theorems": [
    "c66_listing"
   ],
   "note": "for rows sorted by any antisymmetric order of names"
  },
  {
   "property": "C72",
   "status": "proved",
   "theorems": [
    "c72_new_version"
   ],
   "note": "for a location that only one table has"
  },
  {
   "property": "C45",
   "status": "partial",
   "theorems": [
    "c45_create_table_partial",
    "c45_crash_refuted",
    "c45_failed_refuted"
   ],
   "note": "a CREATE TABLE that succeeds does what it says; REFUTED: a crash after the catalog transaction leaves a table without columns, and a CREATE TABLE that fails in its last steps (other database, schema named system, refused columns) leaves the table in the catalog"
  },
  {
   "property": "C46",
   "status": "partial",
   "theorems": [
    "c46_create_database_partial",
    "c46_refuted"
   ],
   "note": "REFUTED: a crash between database and public schema leaves a database without its public schema"
  },
  {
   "property": "C47",
   "status": "partial",
   "theorems": [
    "c47_create_as_partial",
    "c47_create_table_refuted",
    "c47_create_schema_refuted"
   ],
   "note": "proved for CREATE TABLE AS; REFUTED for CREATE SCHEMA and plain CREATE TABLE, which fail on an existing name in spite of IF NOT EXISTS"
  },
  {
   "property": "C50",
   "status": "partial",
   "theorems": [
    "c50_created_where_it_says_partial",
    "c50_other_database_refuted"
   ],
   "note": "REFUTED: CREATE TABLE db.schema.t of another database creates the table in the session's database"
  },
  {
   "property": "C51",
   "status": "partial",
   "theorems": [
    "c51_upload_partial",
    "c51_new_schema_partial",
    "c51_upload_refuted",
    "c51_wrong_table_refuted"
   ],
   "note": "proved for lower-case names in the public schema or a new table of another schema; REFUTED: uploads into a table of another schema fail or go to the public table"
  },
  {
   "property": "C52",
   "status": "partial",
   "theorems": [
    "c52_retried",
    "c52_gc_partial",
    "c52_forgotten_partial",
    "c52_recorded_partial",
    "c52_never_retried"
   ],
   "note": "proved that a table that is not FAILED stays listed through any number of failed cleanups and is deleted and forgotten by the first that succeeds (c52_retried). That rests on how sqlx writes the status (name of the variant, refused by the CHECK constraint: C144), which is the documented behaviour of a dependency that is not in the repository. If the outcome were recorded, one failure would end the attempts (c52_recorded_partial), and a table already FAILED is not tried again"
  },
  {
   "property": "C73",
   "status": "partial",
   "theorems": [
    "c73_convert_partial",
    "c73_convert_refuted"
   ],
   "note": "REFUTED for the location of an existing Delta table: the statement succeeds and registers nothing; proved for Parquet locations"
  },
  {
   "property": "C74",
   "status": "partial",
   "theorems": [
    "c74_drop_table_partial",
    "c74_other_database_refuted",
    "c74_crash_refuted"
   ],
   "note": "REFUTED for tables of other databases (the entry goes, the data stays; with IF EXISTS nothing happens) and for crashes (an entry without data that DROP TABLE IF EXISTS does not remove)"
  },
  {
   "property": "C75",
   "status": "partial",
   "theorems": [
    "c75_no_future_version",
    "c75_insert_partial",
    "c75_crash_refuted",
    "c75_truncate_refuted",
    "c75_truncate_empties"
   ],
   "note": "no version is listed that does not exist (proved over all histories); REFUTED: TRUNCATE commits without recording a version, so does a crash between commit and recording"
  },
  {
   "property": "C76",
   "status": "proved",
   "theorems": [
    "c76_own_location"
   ],
   "note": "over all histories of statements with crashes, given fresh uuids"
  },
  {
   "property": "C77",
   "status": "partial",
   "theorems": [
    "c77_drop_schema_partial",
    "c77_unreadable_refuted"
   ],
   "note": "REFUTED if one table of the schema cannot be read: the statement fails and schema and table stay"
  },
  {
   "property": "C78",
   "status": "partial",
   "theorems": [
    "c78_dropped_partial",
    "c78_created",
    "c78_dropped_refuted"
   ],
   "note": "REFUTED: a dropped function stays callable in the session; gone in a new session"
  },
  {
   "property": "C54",
   "status": "partial",
   "theorems": [
    "c54_split_partial",
    "c54_copy_refuted",
    "c54_copy_doubled_partial"
   ],
   "note": "REFUTED: COPY takes the semicolon after it, so that the statement after COPY ...; is refused; proved for all requests in which COPY comes last only. The parsers of sqlparser are parameters that stop at a semicolon (so CREATE PROCEDURE bodies are outside)"
  },
  {
   "property": "C79",
   "status": "proved",
   "theorems": [
    "c79_copy",
    "c79_copy_rejected",
    "c79_copy_any_order",
    "c79_external",
    "c79_external_rejected",
    "c79_external_any_order"
   ],
   "note": "Columns with collations, options, constraints and trailing commas included. What sqlparser reads (types, options, constraints, expressions) is a parameter that reads what the specification says it reads."
  },
  {
   "property": "C80",
   "status": "partial",
   "theorems": [
    "c80_or_replace_refuted",
    "c80_function_partial"
   ],
   "note": "REFUTED for everything but functions: OR REPLACE is parsed and lost; proved for functions"
  },
  {
   "property": "C81",
   "status": "proved",
   "theorems": [
    "c81_truncate",
    "c81_vacuum",
    "c81_convert",
    "c81_others",
    "c81_copy"
   ],
   "note": "VACUUM DATABASE a.b means a, as the specification says"
  },
  {
   "property": "C82",
   "status": "partial",
   "theorems": [
    "c82_partial",
    "c82_refuted"
   ],
   "note": "REFUTED for quoted names and names with capitals; proved for unquoted lower-case and for multi-part names. How DataFusion looks a called name up is taken from DataFusion"
  },
  {
   "property": "C53",
   "status": "partial",
   "theorems": [
    "c53_partial",
    "c53_search_path_refuted",
    "c53_quoted_refuted",
    "c53_database_refuted",
    "c53_collision_refuted"
   ],
   "note": "proved for all queries whose versioned names are lower-case words, in schema public or with the schema named; REFUTED with a search path, for quoted names with capitals (another table is read), in databases whose names have capitals, and if a table is named t:version"
  },
  {
   "property": "C55",
   "status": "partial",
   "theorems": [
    "c55_decimal_partial",
    "c55_honoured_exactly",
    "c55_honoured_partial",
    "c55_decimal_refuted",
    "c55_scale_refuted",
    "c55_float_refuted",
    "c55_length_refuted"
   ],
   "note": "exact characterisation; REFUTED: DECIMAL(p, s) wraps around at 256 (128 for the scale), FLOAT(p) is single precision for all p, lengths of CHAR and VARCHAR are dropped"
  },
  {
   "property": "C83",
   "status": "partial",
   "theorems": [
    "c83_columns",
    "c83_constraints_rejected",
    "c83_options_refuted",
    "c83_primary_key_refuted"
   ],
   "note": "NOT NULL kept and table constraints refused (proved); REFUTED: every other column option is dropped silently"
  },
  {
   "property": "C84",
   "status": "partial",
   "theorems": [
    "c84_partial",
    "c84_refuted",
    "c84_like_refuted"
   ],
   "note": "WITH and table properties refused (proved); REFUTED for TEMPORARY, LIKE, CLONE, PARTITION BY, ORDER BY, COMMENT"
  },
  {
   "property": "C85",
   "status": "partial",
   "theorems": [
    "c85_partial",
    "c85_refuted"
   ],
   "note": "REFUTED: two columns with one name are accepted by the planner; proved that different names stay different"
  },
  {
   "property": "C86",
   "status": "partial",
   "theorems": [
    "c86_never_wrong",
    "c86_refuted"
   ],
   "note": "REFUTED: a reload by another query before planning makes the query fail; proved that it never reads anything else. That the session state shares its catalog is taken from DataFusion"
  },
  {
   "property": "C87",
   "status": "partial",
   "theorems": [
    "c87_alias_partial",
    "c87_refuted"
   ],
   "note": "REFUTED for references without an alias; an alias is kept"
  },
  {
   "property": "C56",
   "status": "partial",
   "theorems": [
    "c56_partial",
    "c56_reading_unique",
    "c56_not_rejected",
    "c56_together",
    "c56_right_operand_refuted",
    "c56_not_refuted",
    "c56_is_null_refuted",
    "c56_is_refuted",
    "c56_comparison_refuted",
    "c56_operator_refuted",
    "c56_literal_refuted"
   ],
   "note": "proved for a syntactic class of filters (PushSpec.well_grouped); REFUTED outside it: right operands of equal precedence, NOT over AND/OR, IS over or under operators, chained comparisons (Postgres), operators and literals that the database does not know under the text they are sent with. The grammar of the databases is a specification of their common precedence levels"
  },
  {
   "property": "C57",
   "status": "partial",
   "theorems": [
    "c57_identifier",
    "c57_text",
    "c57_text_mysql_partial",
    "c57_mysql_refuted",
    "c57_mysql_injection_refuted",
    "c57_view_refuted"
   ],
   "note": "names proved for all dialects, texts for Postgres and SQLite; REFUTED for MySQL (a backslash before a quote ends the literal, so SQL can be injected) and for texts of type Utf8View, which are not quoted"
  },
  {
   "property": "C88",
   "status": "partial",
   "theorems": [
    "c88_scan_partial",
    "c88_no_filter_dropped",
    "c88_no_columns_refuted"
   ],
   "note": "no filter is ever left out (proved); the rest proved for filters of the class of C56 and at least one column; REFUTED for a scan without columns on SQLite and MySQL"
  },
  {
   "property": "C58",
   "status": "partial",
   "theorems": [
    "c58_partial",
    "c58_echo_returns",
    "c58_decimal",
    "c58_decimal_refuted",
    "c58_negative_decimal_refuted",
    "c58_negative_scale_refuted",
    "c58_named_decimal_refuted",
    "c58_null_refuted",
    "c58_null_becomes_value_refuted"
   ],
   "note": "proved for all types but DECIMAL and columns without NULL; REFUTED: a decimal with the 64th bit set, so every small negative one, comes back smaller by 2^64, negative scales and the type DECIMAL of a statement never return, NULL arrives as the value in the buffer and no function can return NULL"
  },
  {
   "property": "C59",
   "status": "partial",
   "theorems": [
    "c59_contents",
    "c59_partial",
    "c59_refuted",
    "c59_single_small_argument_refuted",
    "c59_end_of_memory_refuted"
   ],
   "note": "contents proved for all sizes, bounds for encodings of four bytes or more; REFUTED below: the length is written as eight bytes, so one boolean or small integer argument overwrites two bytes behind the buffer"
  },
  {
   "property": "C60",
   "status": "partial",
   "theorems": [
    "c60_partial",
    "c60_no_panic_partial",
    "c60_native_partial",
    "c60_empty_batch_refuted",
    "c60_no_arguments_refuted",
    "c60_batch_boundaries_refuted"
   ],
   "note": "row by row application proved for both languages; REFUTED: an empty batch panics if the first argument is a scalar, a function without arguments always panics, a module with state shows batch boundaries"
  },
  {
   "property": "C89",
   "status": "partial",
   "theorems": [
    "c89_create",
    "c89_supported",
    "c89_partial",
    "c89_unsupported_argument_refuted",
    "c89_result_type_refuted"
   ],
   "note": "REFUTED: an unsupported argument type panics at CREATE FUNCTION, a wrong result type is accepted and panics at the first row; proved that nothing panics with the types the module has"
  },
  {
   "property": "C90",
   "status": "proved",
   "theorems": [
    "c90_buffers_freed"
   ],
   "note": "for calls that return; a call that fails drops the whole instance"
  },
  {
   "property": "C61",
   "status": "partial",
   "theorems": [
    "c61_partial",
    "c61_checks",
    "c61_mode_memory_refuted",
    "c61_mode_memory_rejected_refuted",
    "c61_file_name_refuted"
   ],
   "note": "proved for plain SQLite addresses, the checks of S3 and memory for all; REFUTED: an address with mode=memory is accepted with persistent data and rejected with data in memory, a file with :memory: in its name is accepted with data in memory. How SQLite's driver reads addresses is a specification"
  },
  {
   "property": "C62",
   "status": "partial",
   "theorems": [
    "c62_off",
    "c62_partial",
    "c62_refuted",
    "c62_debug_refuted",
    "c62_zero_period_refuted"
   ],
   "note": "proved up to 18 hours; REFUTED from 19 hours on: the product overflows, so the interval is shorter or the process panics"
  },
  {
   "property": "C65",
   "status": "partial",
   "theorems": [
    "c65_transparent",
    "c65_label",
    "c65_counters",
    "c65_partial",
    "c65_under_way_refuted",
    "c65_gauge_partial",
    "c65_gauge_refuted"
   ],
   "note": "transparency proved for all interleavings, the balance of the counters whenever no call is under way; REFUTED in the middle of a call, and the gauge can stay wrong after overlapping calls. Counters are whole numbers"
  },
  {
   "property": "C91",
   "status": "partial",
   "theorems": [
    "c91_settings",
    "c91_malformed_refuted"
   ],
   "note": "the meaning of every text proved; REFUTED: a text that is no hash is accepted and locks everybody out"
  },
  {
   "property": "C63",
   "status": "proved",
   "theorems": [
    "c63_own_store",
    "c63_not_shared",
    "c63_failure"
   ],
   "note": "for every schedule of overlapping requests and every hash function; a request is served by a store built for its URL and options, and a store is never shared between requests that differ"
  },
  {
   "property": "C92",
   "status": "partial",
   "theorems": [
    "c92_shared_partial",
    "c92_overlap_refuted"
   ],
   "note": "proved for requests that do not overlap, for any order of the options; REFUTED for overlapping ones, which build a store each"
  },
  {
   "property": "C93",
   "status": "partial",
   "theorems": [
    "c93_partial",
    "c93_decimal_refuted",
    "c93_decimal_parameters_refuted",
    "c93_timestamp_refuted"
   ],
   "note": "proved for all names but two; REFUTED: DECIMAL means no digits in a function and takes no parameters, TIMESTAMP counts nanoseconds in a function and microseconds in a table"
  },
  {
   "property": "C94",
   "status": "proved",
   "theorems": [
    "c94_stored",
    "c94_all",
    "c94_read",
    "c94_any_partial",
    "c94_digits_refuted"
   ],
   "note": "every definition that CREATE FUNCTION accepts; a definition returning a decimal with digits, which only the programming interface can create, loses them"
  },
  {
   "property": "C64",
   "status": "partial",
   "theorems": [
    "c64_request",
    "c64_only_partial_content",
    "c64_partial",
    "c64_answered",
    "c64_length_refuted",
    "c64_nothing_refuted",
    "c64_nothing_panic_refuted",
    "c64_empty_refuted",
    "c64_opts_partial",
    "c64_opts_refuted",
    "c64_whole",
    "c64_headers"
   ],
   "note": "the request selects exactly the range, and with a server that follows the standard the bytes are the file's; REFUTED: neither the length nor the range of a reply is checked, the empty range at 0 reads the whole file or panics, other empty ranges are sent as malformed requests"
  },
  {
   "property": "C95",
   "status": "partial",
   "theorems": [
    "c95_partial",
    "c95_exact",
    "c95_escape_refuted",
    "c95_slash_refuted",
    "c95_double_slash_refuted",
    "c95_panic_refuted"
   ],
   "note": "proved for URLs made of ordinary segments; REFUTED: escapes are resolved before the request (panicking if they are no text), a final slash is lost, and two slashes in a row are refused"
  },
  {
   "property": "C96",
   "status": "partial",
   "theorems": [
    "c96_head",
    "c96_announced",
    "c96_via_get_partial",
    "c96_panic_refuted",
    "c96_unknown_size",
    "c96_empty_refuted"
   ],
   "note": "proved for HEAD and for standard servers where HEAD is forbidden; REFUTED: a Content-Range without a size panics, an empty file cannot be read there"
  },
  {
   "property": "C97",
   "status": "partial",
   "theorems": [
    "c97_partial",
    "c97_refuted"
   ],
   "note": "proved when one scheme is used; REFUTED: the cache is shared and its keys have no scheme, so what was read over http is served for https"
  },
  {
   "property": "C98",
   "status": "partial",
   "theorems": [
    "c98_partial",
    "c98_signature_refuted",
    "c98_region_refuted",
    "c98_back_refuted",
    "c98_gcs_back_refuted",
    "c98_local",
    "c98_gcs_prefix_refuted",
    "c98_gcs_partial"
   ],
   "note": "REFUTED: with keys and the default skip_signature the rebuilt store does not sign; without a region the regions differ; S3 and GCS options never read back as a configuration (panic); GCS options with a prefix are refused. Proved: S3 with region and consistent keys, in any order and any environment without AWS variables; local configurations; GCS without prefix (credentials become application credentials)."
  },
  {
   "property": "C99",
   "status": "partial",
   "theorems": [
    "c99_partial",
    "c99_replaced_refuted",
    "c99_format_refuted",
    "c99_server",
    "c99_options",
    "c99_panic_refuted"
   ],
   "note": "REFUTED: a later table on the same bucket replaces the credentials of earlier ones; any option, e.g. of the file format, makes the server's credentials unused; skip_signature=false without keys panics. Proved: own options are used as long as no later table is on the same bucket."
  },
  {
   "property": "C100",
   "status": "partial",
   "theorems": [
    "c100_partial",
    "c100_token_refuted",
    "c100_anonymous_refuted"
   ],
   "note": "REFUTED for the session token, which never reaches Iceberg, and for words like yes that make the store anonymous but not Iceberg. Proved for keys, region, endpoint and anonymous access when no setting is given under two names."
  },
  {
   "property": "C101",
   "status": "partial",
   "theorems": [
    "c101_order_partial",
    "c101_explicit_partial",
    "c101_environment_partial",
    "c101_region_refuted",
    "c101_gcs_explicit_refuted",
    "c101_gcs_account",
    "c101_alias_refuted"
   ],
   "note": "REFUTED: two names of one setting make the result depend on iteration order; the region of the environment is ignored in favour of a network lookup whose failure panics; on GCS an account in the environment wins over given credentials. Proved without aliases."
  },
  {
   "property": "C102",
   "status": "partial",
   "theorems": [
    "c102_partial",
    "c102_one_store_partial",
    "c102_named_partial",
    "c102_options_refuted",
    "c102_dot_refuted",
    "c102_up_refuted",
    "c102_order_refuted"
   ],
   "note": "proved for every interleaving of commands and flushes when the URLs tell the places of the tables apart, in particular for normal paths in one store; REFUTED: tables with one URL but different store options (or a/./b and a/b) are mixed up, and /b and b name one table whose changes are written out of order"
  },
  {
   "property": "C103",
   "status": "partial",
   "theorems": [
    "c103_inside",
    "c103_where_partial",
    "c103_named_place",
    "c103_escapes_refuted",
    "c103_iceberg_partial",
    "c103_iceberg_refuted"
   ],
   "note": "Delta tables never leave their store, and normal names lie where location and path say; REFUTED: a name that needs an escape is another directory in a location than in a path, and the path of an Iceberg table can leave its location"
  },
  {
   "property": "C104",
   "status": "partial",
   "theorems": [
    "c104_found",
    "c104_partial",
    "c104_schemas",
    "c104_system_partial",
    "c104_twice_refuted",
    "c104_reserved_refuted",
    "c104_system_refuted"
   ],
   "note": "proved for listings with distinct names that are not reserved; whatever is found was listed, always; REFUTED: of two schemas with one name the tables of the first are missing, tables in schemas called staging or system are never found, and system tables in upper case are said to exist but not found"
  },
  {
   "property": "C105",
   "status": "partial",
   "theorems": [
    "c105_partial",
    "c105_refuted",
    "c105_broken"
   ],
   "note": "proved for tables that cannot be read; REFUTED: one table that cannot be opened (unknown format, missing store, unreadable Iceberg metadata) makes every query on the database fail"
  },
  {
   "property": "C106",
   "status": "partial",
   "theorems": [
    "c106_search_path",
    "c106_one_by_one_partial",
    "c106_no_inline_partial",
    "c106_refuted"
   ],
   "note": "proved for queries with a search path in every schedule, for queries one after the other, and up to catalog changes without inline metastores; REFUTED: two queries at the same time without search paths see the tables of the one that loaded last, even of another client's inline metastore"
  },
  {
   "property": "C107",
   "status": "partial",
   "theorems": [
    "c107_seen",
    "c107_created",
    "c107_databases_refuted",
    "c107_name_refuted",
    "c107_inline_refuted"
   ],
   "note": "created tables stay visible and only created ones are; REFUTED: they are visible and take the name in all databases, and those created with an inline metastore are lost at once"
  },
  {
   "property": "C108",
   "status": "partial",
   "theorems": [
    "c108_partial",
    "c108_later_partial",
    "c108_error_refuted",
    "c108_overlap_refuted"
   ],
   "note": "proved for commands one after the other when the first one is answered, and that commands arriving after an answer never report it again; REFUTED: an error in the first command swallows the report for good, and overlapping commands report it twice"
  },
  {
   "property": "C109",
   "status": "partial",
   "theorems": [
    "c109_one_off",
    "c109_partial",
    "c109_silent_refuted",
    "c109_effect_refuted",
    "c109_vacuum_refuted"
   ],
   "note": "proved for one-off commands, and for the command line when nothing fails and there is no VACUUM; REFUTED for the command line: a statement that cannot be planned suppresses the output of those before it, a query that fails does not keep a DROP behind it from happening, and a VACUUM removes the files that a query before it is about to read"
  },
  {
   "property": "C110",
   "status": "partial",
   "theorems": [
    "c110_describe",
    "c110_commands",
    "c110_help",
    "c110_statement",
    "c110_unknown",
    "c110_at_once",
    "c110_complete",
    "c110_incomplete_partial",
    "c110_injected_refuted",
    "c110_blanks_refuted",
    "c110_quoted_refuted"
   ],
   "note": "proved for commands with a name of one word and for complete statements; REFUTED: statements behind a semicolon in the argument of \\d are run as well, blanks inside of quoted names are collapsed so that another table is described, and a semicolon inside of a text at the end of a line starts the statement too early"
  },
  {
   "property": "C111",
   "status": "partial",
   "theorems": [
    "c111_simple",
    "c111_extended_partial",
    "c111_bound_refuted"
   ],
   "note": "proved for simple queries and for Parse, Bind and Execute in a row; REFUTED: a write happens when it is bound, even if it is never executed, and executing it again does nothing"
  },
  {
   "property": "C112",
   "status": "partial",
   "theorems": [
    "c112_accepted",
    "c112_honoured_partial",
    "c112_tagged",
    "c112_defaults_partial",
    "c112_tagged_defaults",
    "c112_types",
    "c112_numbers_refuted",
    "c112_unknown_refuted"
   ],
   "note": "proved that documented settings are honoured and defaulted, for numbers if the crate config refuses those that do not fit, that unknown types of catalogs and stores are refused, and that settings which follow the documentation are accepted; REFUTED: settings that do not exist are ignored, and numbers that do not fit become other numbers if the crate cuts them off"
  },
  {
   "property": "C113",
   "status": "partial",
   "theorems": [
    "c113_overrides_partial",
    "c113_tagged",
    "c113_file",
    "c113_others",
    "c113_flags_refuted"
   ],
   "note": "proved for all settings but the flags of catalogs and object stores; REFUTED for those flags: whatever their variable says, the server does not start"
  },
  {
   "property": "C114",
   "status": "partial",
   "theorems": [
    "c114_used",
    "c114_again",
    "c114_missing_refuted"
   ],
   "note": "proved for files that exist and for the default file; REFUTED: a file that was named but is missing is not reported, the server starts with defaults and without catalog, store and frontends"
  },
  {
   "property": "C115",
   "status": "partial",
   "theorems": [
    "c115_kept",
    "c115_alone",
    "c115_ready",
    "c115_running_partial",
    "c115_together_refuted",
    "c115_read_only_refuted",
    "c115_error_refuted"
   ],
   "note": "proved for a lone start after any history, for all starts on a prepared catalog, and that nothing is ever lost; REFUTED: of two servers that start together on a new catalog one dies, a read-only catalog without the default database cannot be used, and errors while looking at the catalog are ignored so that the server runs on an unprepared one"
  },
  {
   "property": "C116",
   "status": "partial",
   "theorems": [
    "c116_rows",
    "c116_partial",
    "c116_duplicate_refuted",
    "c116_finite_refuted"
   ],
   "note": "proved that all rows and columns are there in order, and that each value is found under its name if the names of the columns differ and the numbers are finite; REFUTED: of two columns with one name (SELECT * of a join) only the last can be read, and infinite numbers and NaN look like NULL"
  },
  {
   "property": "C117",
   "status": "partial",
   "theorems": [
    "c117_complete",
    "c117_refused",
    "c117_failed_refuted",
    "c117_kept_refuted"
   ],
   "note": "proved for queries that succeed and for those that fail before the first row is sent; REFUTED: a query that fails later is answered with 200, the rows so far and the message in the body, over GET with ETag and Cache-Control, and a later conditional request is told that this answer is still right"
  },
  {
   "property": "C118",
   "status": "partial",
   "theorems": [
    "c118_partial",
    "c118_refuted"
   ],
   "note": "proved that errors in the request are never reported as 5xx; REFUTED: every fault of the server but a failing temporary file is reported as 400"
  },
  {
   "property": "C119",
   "status": "partial",
   "theorems": [
    "c119_partial",
    "c119_encoded_refuted"
   ],
   "note": "proved for names of letters, digits, -, ., _ and ~; REFUTED: every other name is taken as it is encoded, so that another database is asked for and another table is created"
  },
  {
   "property": "C120",
   "status": "partial",
   "theorems": [
    "c120_csv",
    "c120_header_partial",
    "c120_header_refuted",
    "c120_empty_refuted",
    "c120_parquet_partial",
    "c120_missing_refuted",
    "c120_unfit_refuted",
    "c120_extra_refuted"
   ],
   "note": "proved for CSV by position (exact condition for acceptance), by name if the header lists the columns of the table in order, and for the columns of Parquet files whose values fit; REFUTED: the names in a CSV header make no difference, empty texts become null, and a Parquet file that lacks columns, has others or has values that do not fit is not refused: they become null or are left out"
  },
  {
   "property": "C121",
   "status": "partial",
   "theorems": [
    "c121_order",
    "c121_default",
    "c121_two_files_refuted",
    "c121_flag_refuted",
    "c121_unknown_refuted",
    "c121_schema_refuted"
   ],
   "note": "proved that the order of the parts does not matter and that a header is the default; REFUTED: of several files only the last is appended, a flag such as True means no header, unknown parts are ignored, and so is the schema if the table exists"
  },
  {
   "property": "C122",
   "status": "partial",
   "theorems": [
    "c122_partial",
    "c122_form",
    "c122_empty_refuted",
    "c122_sample_refuted",
    "c122_stuck_refuted"
   ],
   "note": "proved for tables that exist and for forms that cannot be read; REFUTED: a file that does not fit leaves a new empty table behind, one record after the sample of 1000 is enough, and then a file with other columns is refused"
  },
  {
   "property": "C123",
   "status": "partial",
   "theorems": [
    "c123_partial",
    "c123_refuted"
   ],
   "note": "proved for settings below 2^44; REFUTED: multiples of 2^44 overflow and refuse every upload"
  },
  {
   "property": "C124",
   "status": "partial",
   "theorems": [
    "c124_refused",
    "c124_no_table_partial",
    "c124_plain_name_partial",
    "c124_write_refuted",
    "c124_retry_refuted",
    "c124_drop_refuted",
    "c124_drop_schema_refuted",
    "c124_vacuum_refuted",
    "c124_vacuum_keeps_partial",
    "c124_function_refuted",
    "c124_truncate"
   ],
   "note": "proved for statements that name no table of the catalog and for writes to tables whose directory is not called by a UUID; REFUTED: INSERT, UPDATE and DELETE of a table in the directory of a UUID are refused and applied in full (retries add the rows again), DROP TABLE, DROP SCHEMA and VACUUM are refused after deleting the files, CREATE FUNCTION is refused and the function can be called"
  },
  {
   "property": "C125",
   "status": "partial",
   "theorems": [
    "c125_others_partial",
    "c125_insert_refuted",
    "c125_stray_refuted",
    "c125_update_refuted"
   ],
   "note": "proved if tables with UUIDs for names are those of the configured store; REFUTED otherwise: INSERT goes into the table of that UUID in the configured store or leaves a stray file there, UPDATE and DELETE leave the table unreadable"
  },
  {
   "property": "C126",
   "status": "partial",
   "theorems": [
    "c126_prefix_partial",
    "c126_flush_partial",
    "c126_catches_up_partial",
    "c126_failure_keeps",
    "c126_refuted"
   ],
   "note": "proved, with all schedules, for messages with all columns whose updates keep their keys, and for updates of keys if no message arrives while squashed changes are waiting; REFUTED: with one key column, a squashing between two messages brings a deleted row back and loses the row that was moved to its key"
  },
  {
   "property": "C127",
   "status": "partial",
   "theorems": [
    "c127_bytes_partial",
    "c127_rows_drift",
    "c127_rows_partial",
    "c127_refuted"
   ],
   "note": "proved for bytes, and for rows as long as squashing removed none; REFUTED for rows: the gauge goes up instead of down when squashing removes rows, so it is too high by exactly twice the rows ever removed, also when nothing is pending"
  },
  {
   "property": "C128",
   "status": "proved",
   "theorems": [
    "c128_conservation",
    "c128_counters_grow",
    "c128_requests_counted"
   ],
   "note": "ghost counters hold what squashing added, if it ever did; with none added the equations are the plain ones"
  },
  {
   "property": "C129",
   "status": "partial",
   "theorems": [
    "c129_oldest_partial",
    "c129_failed_flush_partial",
    "c129_refuted"
   ],
   "note": "proved after every event whose flushes succeed, with a clock that is not set back; REFUTED: after a flush that fails behind a successful one the gauge shows the time of a table that is no longer pending"
  },
  {
   "property": "C130",
   "status": "partial",
   "theorems": [
    "c130_gauges",
    "c130_nearest",
    "c130_exact_partial",
    "c130_refuted"
   ],
   "note": "proved up to 2^53, and above it that the nearest float is shown; REFUTED: no odd number above 2^53 is shown, different numbers are shown as equal"
  },
  {
   "property": "C131",
   "status": "partial",
   "theorems": [
    "c131_no_orphans_partial",
    "c131_quiescent_partial",
    "c131_refuted"
   ],
   "note": "proved for histories without failing writes, and for those whose writes fail without leaving a file; REFUTED: a write that fails half way leaves a file that nothing refers to and nothing removes"
  },
  {
   "property": "C132",
   "status": "partial",
   "theorems": [
    "c132_no_request",
    "c132_offline_partial"
   ],
   "note": "no request is sent, in any state and whatever runs beside it as long as nothing leaves the cache; that the bytes are right is proved for cache files that appear as a whole (as C22)"
  },
  {
   "property": "C133",
   "status": "proved",
   "theorems": [
    "c133_requests_are_real",
    "c133_each_missing_once",
    "c133_one_request",
    "c133_concurrent_refuted"
   ],
   "note": "for a read that runs by itself, in any state; with two reads at the same time a chunk can be fetched twice (shown by c133_concurrent_refuted; the code documents this)"
  },
  {
   "property": "C134",
   "status": "partial",
   "theorems": [
    "c134_never_repaired",
    "c134_orderly_partial",
    "c134_refuted"
   ],
   "note": "proved that no entry loses its file if evictions do not overlap with reads and write tasks; REFUTED: a chunk that is read between its eviction and the removal of its file keeps an entry without a file, which only eviction or expiry removes, so that every read of it goes to the store"
  },
  {
   "property": "C135",
   "status": "partial",
   "theorems": [
    "c135_entry_size",
    "c135_capacity_partial",
    "c135_refuted"
   ],
   "note": "proved for chunks below 2^32 bytes, given that the library keeps the sum of the weights within the capacity; REFUTED: chunks of a multiple of 2^32 bytes weigh nothing"
  },
  {
   "property": "C136",
   "status": "partial",
   "theorems": [
    "c136_flat_partial",
    "c136_nested_refuted",
    "c136_shifted_refuted",
    "c136_table_refuted"
   ],
   "note": "proved for plain types; REFUTED for nested ones: one descriptor for each column is refused, one for each nested field too shifts the descriptors, and nothing can be written to a table that has a nested column"
  },
  {
   "property": "C137",
   "status": "partial",
   "theorems": [
    "c137_written_partial",
    "c137_capital_key_refuted",
    "c137_capital_field_refuted",
    "c137_wrong_column_refuted",
    "c137_same_column_refuted",
    "c137_same_field_refuted"
   ],
   "note": "proved for messages with distinct columns whose keys and fields have lower-case names (one pending message, types that agree with the table); REFUTED: key columns and fields with capitals make every flush fail or read another field, and so do columns with the same role and name or fields with the same name, all of which are accepted"
  },
  {
   "property": "C138",
   "status": "partial",
   "theorems": [
    "c138_status_partial",
    "c138_status_refuted",
    "c138_token_refuted",
    "c138_route_partial",
    "c138_route_refuted"
   ],
   "note": "REFUTED: the counter sits inside of the handler of rejections, so every request that is turned away for its token, its rights or its body is answered 4xx (401 for a wrong token) but counted as 500; queries of a database named upload are counted as uploads. Proved for all other requests"
  },
  {
   "property": "C139",
   "status": "partial",
   "theorems": [
    "c139_http_partial",
    "c139_own_label_refuted",
    "c139_http_refuted",
    "c139_grpc_partial",
    "c139_grpc_refuted"
   ],
   "note": "REFUTED: unknown paths are labels of their own, for HTTP and for gRPC, so clients without any rights can make any number of time series. Proved: requests for routes that exist have four (three) labels"
  },
  {
   "property": "C140",
   "status": "partial",
   "theorems": [
    "c140_partial",
    "c140_late_refuted",
    "c140_panic_refuted",
    "c140_totals_refuted"
   ],
   "note": "REFUTED: a query that fails while its rows are sent is counted as a success, and an inline query without schemas is not counted. Proved for all other calls"
  },
  {
   "property": "C141",
   "status": "partial",
   "theorems": [
    "c141_server",
    "c141_partial",
    "c141_query_refuted",
    "c141_sync_refuted",
    "c141_inline_refuted"
   ],
   "note": "REFUTED: every mistake in a query is answered INTERNAL, like a failure of the server; so are sync messages for Iceberg tables and other locations; an inline query without schemas panics. Proved: failures of the server are always INTERNAL, malformed commands, unknown tickets, wrong sync schemas and messages are told as such"
  },
  {
   "property": "C142",
   "status": "partial",
   "theorems": [
    "c142_fetched_partial",
    "c142_kept_refuted",
    "c142_unbounded_refuted"
   ],
   "note": "REFUTED: a result that is not fetched is kept for ever, without a bound. Proved: one that is fetched is not kept"
  },
  {
   "property": "C143",
   "status": "proved",
   "theorems": [
    "c143_exact",
    "c143_once",
    "c143_names",
    "c143_every_table",
    "c143_create",
    "c143_create_refused",
    "c143_version",
    "c143_rename",
    "c143_drop_table",
    "c143_drop_schema",
    "c143_drop_database",
    "c143_vacuum",
    "c143_elsewhere",
    "c143_quiet",
    "c143_refused"
   ],
   "note": "the recorded versions of the catalog; that they are the readable versions of the data is another matter (C31, C53, C75)"
  },
  {
   "property": "C144",
   "status": "partial",
   "theorems": [
    "c144_removed",
    "c144_deleted",
    "c144_elsewhere",
    "c144_recorded_refuted",
    "c144_by_hand_refuted",
    "c144_capitals_partial"
   ],
   "note": "REFUTED: the status is written as the name of the variant and the CHECK constraint wants capitals, so the database refuses it: system.dropped_tables never shows RETRY or FAILED for a failed cleanup, and the operator is told to delete by hand a table that the program goes on trying to delete. Rests on the encoding of sqlx. Proved what a cleanup removes; with a status written as it is read the outcome would be recorded"
  },
  {
   "property": "C145",
   "status": "partial",
   "theorems": [
    "c145_partial",
    "c145_exact_partial",
    "c145_refused",
    "c145_failed_refuted",
    "c145_precision_refuted",
    "c145_types_refuted",
    "c145_upload_refuted",
    "c145_replace_refuted"
   ],
   "note": "REFUTED: a query that fails while it runs leaves an empty table, and repeating the statement with IF NOT EXISTS reports success with the table still empty; nanoseconds are cut off (towards 1970), so different moments become equal; seconds, milliseconds and nested nanoseconds are refused; OR REPLACE is ignored. Proved: success means the rows and columns of the query, in order, exact up to less than a microsecond; refusals before the table is created change nothing"
  },
  {
   "property": "C146",
   "status": "partial",
   "theorems": [
    "c146_partial",
    "c146_remain_unique",
    "c146_no_where",
    "c146_false_refuted",
    "c146_subquery_refuted",
    "c146_update_partial",
    "c146_update_refused"
   ],
   "note": "REFUTED: DELETE with a WHERE clause that comes down to false or NULL (WHERE 1 = 2), or with a conjunct IN or EXISTS (SELECT ...), deletes all rows, because the optimised plan has no Filter right below the Dml node. Rests on rules of DataFusion's optimizer that are written down in DmlModel.v. Proved: conditions on the row alone that can be satisfied delete exactly the rows they select (with C29's restriction on unknown); UPDATE handles constants and refuses subqueries"
  },
  {
   "property": "C147",
   "status": "partial",
   "theorems": [
    "c147_refused",
    "c147_refused_set",
    "c147_partial",
    "c147_ignored",
    "c147_empty",
    "c147_empty_refuted",
    "c147_same_name_refuted"
   ],
   "note": "REFUTED: FROM is ignored when only columns of the target are mentioned, so rows are updated although a table of FROM is empty; a table of FROM with the name of the target in another schema is taken for the target. Proved: mentioning columns of other tables is refused without change, and otherwise the rows become what SQL says"
  },
  {
   "property": "C148",
   "status": "partial",
   "theorems": [
    "c148_holds_unique",
    "c148_partial",
    "c148_others",
    "c148_fits",
    "c148_unseen_refuted",
    "c148_no_hint_refuted"
   ],
   "note": "REFUTED: a table is read from the metadata file that it was registered with, so inserted rows are not seen by later queries of it; without a version hint (tables that belong to a catalog) the insert succeeds for any columns and writes a version with the new rows only. Proved: with a hint the new version holds the rows of the version that the hint names and the new ones; other files are not changed and refused inserts change nothing"
  },
  {
   "property": "C149",
   "status": "partial",
   "theorems": [
    "c149_valid",
    "c149_kept",
    "c149_read_partial",
    "c149_schema_refuted",
    "c149_partition_partial",
    "c149_partition_new",
    "c149_partition_refuted",
    "c149_parent_refuted"
   ],
   "note": "REFUTED: the new snapshot is recorded with the schema 0, so after a column was added or renamed every query of the new version fails (rests on iceberg-rust's scan); the new files have no partition values in partitioned tables; the snapshot has no parent. Proved: metadata stay valid, all snapshots, schemas and specs are kept, sequence numbers grow; reads and partition values are right for the first schema and unpartitioned tables"
  },
  {
   "property": "C150",
   "status": "partial",
   "theorems": [
    "c150_partial",
    "c150_sequential",
    "c150_no_lost",
    "c150_conflict",
    "c150_failed",
    "c150_update_refuted",
    "c150_insert_select_refuted"
   ],
   "note": "REFUTED for UPDATE and INSERT ... SELECT of the table itself: two UPDATEs of different files at the same time both succeed and exchange values, which no order of execution does; two INSERT ... SELECT count(*) both insert the same count (no predicate or read set is passed to the conflict check of delta-rs). Proved for every schedule of INSERTs, uploads, DELETEs and TRUNCATEs: there is an order that agrees with time and gives the same table; statements of any kind that do not overlap are executed in order; no update is lost; of two statements that rewrite a common file at most one succeeds; a failed statement changes nothing"
  },
  {
   "property": "C151",
   "status": "partial",
   "theorems": [
    "c151_one_version",
    "c151_fresh",
    "c151_found_partial",
    "c151_moment_partial",
    "c151_found_refuted",
    "c151_dropped_refuted",
    "c151_moment_refuted"
   ],
   "note": "REFUTED: in a shared session a statement that has read the catalog earlier registers what it read in the middle of the planning of another query, which then misses a table created, or reads a table dropped, before it began; a query of two tables may see a later commit to one and miss an earlier commit to the other. Proved for all interleavings: one version of each table per query, however it is spelled; all commits finished before the query began are seen and no others than those that have happened; alone in its session a query finds exactly the tables that were there when it began; what it reads existed at one moment if nobody commits meanwhile"
  },
  {
   "property": "C152",
   "status": "partial",
   "theorems": [
    "c152_latest",
    "c152_since",
    "c152_freed",
    "c152_unfinished",
    "c152_recorded_partial",
    "c152_truncate_refuted",
    "c152_order_refuted",
    "c152_orphans_refuted",
    "c152_crash_refuted"
   ],
   "note": "REFUTED: the version TRUNCATE makes is not recorded, so after TRUNCATE and VACUUM the only version in system.table_versions cannot be read; of two concurrent writes the older version may be recorded last and is then the one VACUUM keeps and empties; files of statements that fail in a conflict or stop before their commit are never deleted. Proved for all interleavings: the newest version can always be read; a version stays readable until a VACUUM begins after it was replaced; a VACUUM deletes every file dropped before it began; uncommitted files are left alone; writes and vacuums that run to their end one after the other leave every recorded version readable"
  },
  {
   "property": "C153",
   "status": "partial",
   "theorems": [
    "c153_kept",
    "c153_complete",
    "c153_settled",
    "c153_delta",
    "c153_newer",
    "c153_canonical_partial",
    "c153_second_start",
    "c153_first_start_refuted",
    "c153_unknown_refuted",
    "c153_legacy_refuted"
   ],
   "note": "REFUTED: texts of types are rewritten before the migrations, so a catalog older than the second migration needs two starts; types that cannot be read from a field without children are never rewritten; tables from before the Delta migration all get the same location, without rows. Proved for any number of starts interrupted anywhere: names, keys and recorded types are kept, the first uninterrupted start completes the upgrade, later starts change nothing, Delta tables keep locations and versions, catalogs of later versions are refused"
  },
  {
   "property": "C154",
   "status": "partial",
   "theorems": [
    "c154_whole",
    "c154_all_or_none",
    "c154_limit",
    "c154_progress",
    "c154_remote_partial",
    "c154_tidy_partial",
    "c154_fragment_refuted",
    "c154_orphans_refuted",
    "c154_temp_refuted"
   ],
   "note": "REFUTED: with a local store on another file system than the temporary directory, a copy that stops leaves a part of a file under its name; the files of a statement that fails or is cancelled stay in the store for ever without being named by the log; a process that stops leaves its temporary files. Proved for all interleavings of the tasks, failures, cancellations and stops: the log names all files or none, each whole and with its size; other stores never show a part of a file; after the tasks are over no temporary file is left; the limit is kept; without failures the statement can always go on to its commit"
  },
  {
   "property": "C155",
   "status": "partial",
   "theorems": [
    "c155_values_partial",
    "c155_succeeds",
    "c155_introspected",
    "c155_absent",
    "c155_absent_refuted",
    "c155_not_null_refuted",
    "c155_star_positions",
    "c155_star_partial",
    "c155_star_refuted"
   ],
   "note": "REFUTED: SQLite takes a quoted name without a column for a text, so a declared column that the table does not have shows its own name in every row; NOT NULL of declared columns is not checked; a scan without a list of columns (which the provider allows, DataFusion's optimizer always gives one) takes columns by position. Proved for all tables, declared columns, projections, filters and limits: a scan with a list of columns shows the remote columns of those names converted to the declared types, and succeeds whenever the values can be converted"
  },
  {
   "property": "C156",
   "status": "partial",
   "theorems": [
    "c156_no_new",
    "c156_waits_partial",
    "c156_bounded",
    "c156_clean_partial",
    "c156_accounted",
    "c156_gc_refuted",
    "c156_postgres_refuted",
    "c156_pending_refuted"
   ],
   "note": "REFUTED: the garbage collection task never ends, so every server that has it stops with a panic after the full five seconds, even when idle; statements of the Postgres frontend are cut off without waiting; changes in the memory of the sync writer are not flushed. Proved for all histories: no request is taken after the request to stop, HTTP and Flight requests are only cut off when the time is up, the server is over by then, without garbage collection it ends with its last request and without an error, and changes are only lost at the end of the program"
  },
  {
   "property": "C157",
   "status": "partial",
   "theorems": [
    "c157_shared",
    "c157_isolated_partial",
    "c157_starts_partial",
    "c157_case_refuted",
    "c157_long_refuted",
    "c157_comment_refuted",
    "c157_dash_refuted",
    "c157_digit_refuted"
   ],
   "note": "REFUTED: the name is put into the statements without quotes, so every name with a capital letter shares the catalog of the name in small letters, names that differ after 63 bytes or only after two dashes share one, and names with a single dash or a leading digit never start. Proved for all histories: a server sees exactly the statements of the servers whose name stands for the same schema (c157_shared); names of at most 63 small letters, digits and underscores that are no key words are isolated, survive restarts and crashes and always start"
  },
  {
   "property": "C158",
   "status": "partial",
   "theorems": [
    "c158_spelled",
    "c158_no_such_time",
    "c158_wrong_weekday",
    "c158_calendar",
    "c158_case",
    "c158_travel_partial",
    "c158_fraction_refuted"
   ],
   "note": "REFUTED for fractions of seconds without an offset directly after them: they are refused. Proved for all moments and offsets: each of the seven written forms denotes the moment that it says by the Gregorian calendar, impossible moments and wrong weekdays are refused, every date has exactly one day number, and case does not matter, which discharges a hypothesis of c53_partial (c158_travel_partial)"
  },
  {
   "property": "C159",
   "status": "partial",
   "theorems": [
    "c159_writes",
    "c159_reads",
    "c159_only",
    "c159_rejects",
    "c159_unambiguous",
    "c159_trailing_refuted",
    "c159_call",
    "c159_partial",
    "c159_decimal_refuted"
   ],
   "note": "REFUTED for bytes behind the value, which are ignored, and for decimal results whose low word has its top bit set, which come out 2^64 too small. Proved for all values, encodings, modules and batches, against the format written as a relation: what the host writes is MessagePack, every encoding of a value is read as that value, nothing else is accepted, the format is unambiguous, and a module that follows the format gets row i's arguments and gives row i of the result. The library's limits on nesting are not modelled"
  },
  {
   "property": "C160",
   "status": "partial",
   "theorems": [
    "c160_reads",
    "c160_delivered",
    "c160_overhead",
    "c160_requests",
    "c160_downloaded",
    "c160_written_partial",
    "c160_written_refuted",
    "c160_evicted",
    "c160_evicted_refuted"
   ],
   "note": "REFUTED: a read past the end of an object makes the counter of written bytes exceed the downloaded ones, and bytes that were downloaded once can be counted as evicted twice. Proved for all interleavings of reads, write tasks, evictions and changes of objects: every read is counted once with the bytes it asks for, all bytes that reads return are counted as read from memory, read from disk or downloaded, at most two chunks per read are counted beyond what was asked for, every request is counted once under its end, downloaded bytes are those of the answers, within objects that do not change no more is written than downloaded, and the evicted bytes are those of the entries that go away. The gauge of the usage and the latencies are not modelled"
  },
  {
   "property": "C161",
   "status": "partial",
   "theorems": [
    "c161_counted_partial",
    "c161_multipart_refuted",
    "c161_checkpoint_refuted",
    "c161_streams_refuted",
    "c161_once"
   ],
   "note": "REFUTED: multipart uploads that are begun with options are not counted, a missing object whose path ends in _last_checkpoint counts as a success, and lists and bulk deletions have no status. All other calls are counted once under their name and their end, for all sequences of calls"
  },
  {
   "property": "C162",
   "status": "partial",
   "theorems": [
    "c162_limit_partial",
    "c162_granted",
    "c162_unlimited",
    "c162_unasked_refuted",
    "c162_overflow_refuted",
    "c162_none_refuted"
   ],
   "note": "REFUTED: operators that take memory without asking (MemoryPool::grow) are not limited, and a limit of 2^44 megabytes or more stops a debug build and silently becomes a smaller one in a release build (a multiple of 2^44: none at all). Proved for all limits below 2^29 megabytes and all interleavings of calls of the pool: what is held never exceeds seven tenths of the configured memory, apart from what is taken without asking, and a request that fits (less a byte) is granted; the product of f64 numbers and its rounding are modelled exactly. Operators that do not register with the pool are outside the model"
  },
  {
   "property": "C163",
   "status": "partial",
   "theorems": [
    "c163_size",
    "c163_form_refuted",
    "c163_overflow_refuted",
    "c163_zero_refuted"
   ],
   "note": "REFUTED: a file of exactly the configured size is refused, since the form around it counts, and a limit of 2^44 megabytes or more stops a debug build and becomes a smaller one in a release build. Proved for all limits below 2^44 megabytes and all admitted uploads: 413 exactly for bodies that are longer than the limit, 411 without a length, otherwise the answer of the handler"
  },
  {
   "property": "C164",
   "status": "partial",
   "theorems": [
    "c164_only",
    "c164_cleaned",
    "c164_all_partial",
    "c164_not_given_up_partial",
    "c164_given_up_refuted",
    "c164_listing_refuted",
    "c164_late_refuted",
    "c164_concurrent_refuted"
   ],
   "note": "REFUTED: an error in a listing is passed over, so that a table is forgotten while all of its objects stay; so are objects written after the listing; two clean-ups at the same time make each other fail on stores that report missing objects, and a table is given up for good although the store works. Proved for all interleavings of clean-ups, crashes, errors, writers and drops: objects of tables that are not dropped stay; with complete listings and no late writers a table that is not listed any more has no objects left; one clean-up at a time on a store that works gives up no table; an undisturbed clean-up deletes exactly the objects and rows of the tables not given up"
  },
  {
   "property": "C165",
   "status": "partial",
   "theorems": [
    "c165_access_partial",
    "c165_fresh_partial",
    "c165_delta_partial",
    "c165_errors",
    "c165_private",
    "c165_query_in_body",
    "c165_revoked_refuted",
    "c165_vary_refuted",
    "c165_body_refuted",
    "c165_stale_refuted",
    "c165_external_refuted"
   ],
   "note": "REFUTED: within max-age a token that was withdrawn still gets answers from the cache; a cache that does not heed Vary, such as the one that the code names, answers requests with any token or none; the query in the body of a request is not among what answers are told apart by, so the hash alone is answered with data although the server refuses it; queries of tables that are not Delta tables keep their ETag, so old rows are confirmed for ever. Proved for all histories of requests, changes, restarts and time: with a cache that heeds Vary and without other settings, only requests whose sender may read get data; if equal ETags mean equal rows (which holds for queries of Delta tables without subqueries, c165_delta_partial) and queries are not in bodies, the data is what the server answers the same request now or did less than max-age ago; errors are never answered from the cache; private keeps shared caches out; a query in the body is answered like the same query in the header."
  },
  {
   "property": "C166",
   "status": "partial",
   "theorems": [
    "c166_usage_partial",
    "c166_lag_partial",
    "c166_gone",
    "c166_capacity",
    "c166_failed_refuted",
    "c166_caches_refuted",
    "c166_negative_refuted"
   ],
   "note": "REFUTED: a chunk whose file cannot be written is thrown away and still counted, since the gauge is set to a weight that pending tasks have not updated; all caches share one gauge, so it shows the cache that was written to last and nothing right after a cache is opened; between two settings it can be negative. Proved for all histories: with one cache the usage is exact once pending tasks were run and it was set and stays exact while chunks are evicted; whenever it is set it is what the cache held when pending tasks were last run; when chunks go it goes down by their length; the capacity shown is the one of the cache opened last."
  },
  {
   "property": "C167",
   "status": "partial",
   "theorems": [
    "c167_partial",
    "c167_same",
    "c167_exact",
    "c167_refusal_refuted",
    "c167_nothing_refuted",
    "c167_conditional_refuted",
    "c167_headers_refuted"
   ],
   "note": "REFUTED: requests that are refused before their handler (no or a wrong token, no query) and URLs with nothing under them are answered without CORS headers, so a page sees a network error instead of the status; a page that sets If-None-Match fails in the preflight; the ETag and the query time cannot be read by pages. Proved for all requests: one that reaches its handler, with the usual headers, is answered to a page with the same status, Content-Type and Cache-Control; what a page sees is always what others see; exactly which requests are answered to pages (c167_exact). Trusted: the reading of warp's cors filter and of the Fetch standard in PageModel.v, neither of which is in /repo."
  },
  {
   "property": "C168",
   "status": "proved",
   "theorems": [
    "c168_schema",
    "c168_one_header",
    "c168_read_back",
    "c168_distinct",
    "c168_post"
   ],
   "note": "for every JSON text of a schema, whatever bytes its column names have. That serde_json reads back what it writes is a hypothesis of c168_read_back. Limits that clients put on the length of headers are not modelled."
  }
 ]
}