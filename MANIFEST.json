{
 "claims": [
  {
   "property": "C01",
   "status": "proved",
   "theorems": [
    "index_text_accept_sound",
    "index_text_total"
   ],
   "note": ""
  },
  {
   "property": "C02",
   "status": "proved",
   "theorems": [
    "index_option_roundtrip",
    "safe_target_roundtrip"
   ],
   "note": ""
  },
  {
   "property": "C03",
   "status": "proved",
   "theorems": [
    "single_line_accept_iff",
    "index_text_accept_iff",
    "index_texts_accept_iff",
    "whole_text_claim_refuted"
   ],
   "note": "single-line iff and complete multi-line characterisation; the whole-text claim is refuted"
  },
  {
   "property": "C04",
   "status": "proved",
   "theorems": [
    "is_safe_exact",
    "safe_name_correct",
    "it_equals_iff",
    "is_safe_columns_nonempty_refuted"
   ],
   "note": ""
  },
  {
   "property": "C05",
   "status": "proved",
   "theorems": [
    "temp_index_name_usable",
    "run_uses_such_names"
   ],
   "note": ""
  },
  {
   "property": "C06",
   "status": "proved",
   "theorems": [
    "created_index_is_dropped",
    "at_most_one_temporary_index",
    "no_index_left_behind",
    "final_index_set_is_replay"
   ],
   "note": ""
  },
  {
   "property": "C07",
   "status": "proved",
   "theorems": [
    "only_own_indexes_dropped",
    "existing_indexes_survive"
   ],
   "note": ""
  },
  {
   "property": "C08",
   "status": "proved",
   "theorems": [
    "examination_ok_iff",
    "examination_results_faithful",
    "examination_failure_faithful",
    "examined_targets"
   ],
   "note": ""
  },
  {
   "property": "C09",
   "status": "proved",
   "theorems": [
    "mysql_statements_as_intended",
    "pg_statements_as_intended",
    "suggest_ddl_as_intended",
    "unsafe_table_breaks_statement_refuted"
   ],
   "note": ""
  },
  {
   "property": "C10",
   "status": "proved",
   "theorems": [
    "no_ddl_unless_requested",
    "only_requested_targets_examined",
    "malformed_option_fails_first",
    "malformed_option_no_ddl_hasura",
    "malformed_option_hasura_refuted"
   ],
   "note": "last claim refuted for Hasura"
  },
  {
   "property": "C11",
   "status": "proved",
   "theorems": [
    "suggested_columns_exist",
    "unknown_table_never_reported"
   ],
   "note": "For every map order, field order and sort; scopes arbitrary."
  },
  {
   "property": "C12",
   "status": "proved",
   "theorems": [
    "suggestions_well_formed"
   ],
   "note": ""
  },
  {
   "property": "C13",
   "status": "proved",
   "theorems": [
    "candidate_indexes_exact",
    "suggestions_exact"
   ],
   "note": "candidate_indexes_exact is per table; suggestions_exact goes from the declarative meaning of an unambiguous statement to the suggested list."
  },
  {
   "property": "C14",
   "status": "proved",
   "theorems": [
    "suggestions_sorted",
    "suggestions_no_duplicates",
    "suggestions_no_duplicates_refuted",
    "suggestions_reproducible",
    "suggestions_reproducible_refuted"
   ],
   "note": "The _refuted theorems show that the two provisos (one scope, unambiguous names) are needed."
  },
  {
   "property": "C15",
   "status": "proved",
   "theorems": [
    "slice_sharing_harmless"
   ],
   "note": "Slices as (array, length, capacity) over a heap with any growth function and any prior heap."
  },
  {
   "property": "C16",
   "status": "proved",
   "theorems": [
    "each_column_once_conditions_win",
    "uses_recorded"
   ],
   "note": ""
  },
  {
   "property": "C17",
   "status": "proved",
   "theorems": [
    "qualified_resolution",
    "flat_scope_attribution",
    "unresolved_is_error",
    "sql_visibility_refuted_capture",
    "sql_visibility_refuted_two_levels"
   ],
   "note": ""
  },
  {
   "property": "C18",
   "status": "proved",
   "theorems": [
    "build_never_crashes",
    "build_never_crashes_refuted"
   ],
   "note": "The PostgreSQL part is proved with the collector (C26)."
  },
  {
   "property": "C19",
   "status": "proved",
   "theorems": [
    "existing_indexes_filtered_exactly",
    "tables_asked_once"
   ],
   "note": "Candidates are pointers; lo.Uniq acts on pointers."
  },
  {
   "property": "C20",
   "status": "proved",
   "theorems": [
    "index_rows_grouped"
   ],
   "note": ""
  },
  {
   "property": "C21",
   "status": "proved",
   "theorems": [
    "schemas_assembled",
    "missing_table_is_error"
   ],
   "note": ""
  },
  {
   "property": "C22",
   "status": "proved",
   "theorems": [
    "mysql_expression_columns",
    "mysql_expression_accepted",
    "mysql_expression_sound",
    "mysql_expression_columns_refuted",
    "mysql_match_order_refuted"
   ],
   "note": "exact for lossless expressions; loss under COLLATE, := and GROUP_CONCAT ORDER BY shown"
  },
  {
   "property": "C23",
   "status": "proved",
   "theorems": [
    "mysql_table_names_exact",
    "mysql_table_names_refused",
    "mysql_table_names_sound",
    "mysql_table_names_refuted"
   ],
   "note": "exact for the program's WITH scoping; difference from SQL's scoping shown"
  },
  {
   "property": "C24",
   "status": "proved",
   "theorems": [
    "pg_walk_events",
    "pg_walk_exactly_once",
    "pg_unsupported_kinds_rejected",
    "pg_walk_refuted"
   ],
   "note": "True for everything the walker reaches; refuted for OFFSET (and ORDER BY of functions and windows), which is never visited."
  },
  {
   "property": "C25",
   "status": "proved",
   "theorems": [
    "pg_scopes_crash",
    "pg_scopes_crash_refuted"
   ],
   "note": "The claim as stated is false; proved: the statement crashes if it is not a plain SELECT, and a plain one crashes only with a half window frame or a parenthesised table."
  },
  {
   "property": "C26",
   "status": "proved",
   "theorems": [
    "pg_from_exact",
    "pg_from_last_only",
    "pg_from_refuted"
   ],
   "note": "False for comma lists; exact for a single item, and in general exactly the last item. For supported statements."
  },
  {
   "property": "C27",
   "status": "proved",
   "theorems": [
    "pg_expression_exact",
    "pg_expression_reported"
   ],
   "note": "Errors are reported iff a part is unsupported, crashes happen iff a window frame has one bound."
  },
  {
   "property": "C28",
   "status": "proved",
   "theorems": [
    "mysql_explain_exact",
    "mysql_line_depth",
    "mysql_explain_outcome",
    "mysql_explain_roundtrip"
   ],
   "note": "Exact tree, exact success condition (all lines readable and no level skipped), error messages, no crash, print/parse round trip for every printable plan."
  },
  {
   "property": "C29",
   "status": "proved",
   "theorems": [
    "mysql_line_reads",
    "mysql_table_unique",
    "mysql_line_printed",
    "mysql_table_in_literal_refuted",
    "mysql_scientific_cost_refuted"
   ],
   "note": "Arbitrary lines: table and numbers are those standing in the line; printed lines: exactly the printed numbers. Two refuted variants show the limits of the reader."
  },
  {
   "property": "C30",
   "status": "proved",
   "theorems": [
    "pg_groups_exact",
    "pg_cut_unique",
    "pg_groups_without_summary",
    "pg_groups_summary_first",
    "pg_last_node_lost_refuted"
   ],
   "note": "The last node is lost for every text without a summary; shown in general and refuted by example."
  },
  {
   "property": "C31",
   "status": "proved",
   "theorems": [
    "pg_explain_exact",
    "pg_node_indentation",
    "pg_explain_outcome",
    "pg_explain_roundtrip"
   ],
   "note": "Exact tree by nearest less-indented predecessor, exact success condition, no crash, print/parse round trip."
  },
  {
   "property": "C32",
   "status": "proved",
   "theorems": [
    "pg_node_reads",
    "pg_table_unique",
    "pg_numbers_line_unique",
    "pg_node_printed",
    "pg_schema_as_table_refuted"
   ],
   "note": "As C29 for PostgreSQL nodes; a schema-qualified table is reported as its schema (refuted variant)."
  },
  {
   "property": "C33",
   "status": "proved",
   "theorems": [
    "single_table_exact",
    "single_table_covers",
    "single_table_crash_refuted",
    "single_table_once_refuted",
    "single_table_topmost_refuted"
   ],
   "note": "Exact set of results and exact crash condition; the claims that every plan has results and that each table is reported once are refuted."
  },
  {
   "property": "C34",
   "status": "proved",
   "theorems": [
    "heap_keeps_greatest"
   ],
   "note": "For every strict weak order and every limit (negative limits count as 0); container/heap's up/down are modelled step by step."
  },
  {
   "property": "C35",
   "status": "proved",
   "theorems": [
    "uniq_keeps_first",
    "uniq_determined"
   ],
   "note": "Exact positions; the specification determines the result."
  },
  {
   "property": "C36",
   "status": "proved",
   "theorems": [
    "time_ranges_tile",
    "time_ranges_diverge",
    "time_ranges_empty"
   ],
   "note": "Exact windows, each instant in exactly one; divergence for a non-positive interval."
  },
  {
   "property": "C37",
   "status": "proved",
   "theorems": [
    "sets_are_sets",
    "stack_lifo",
    "stack_empty"
   ],
   "note": "Sets: any program over any number of shared sets, any map order. Stack: LIFO over balanced operations."
  },
  {
   "property": "C38",
   "status": "proved",
   "theorems": [
    "spans_form_forest",
    "complete_spans_convert",
    "cycles_dropped",
    "unset_attribute_panics"
   ],
   "note": "The panic on an attribute without value is a finding."
  },
  {
   "property": "C39",
   "status": "proved",
   "theorems": [
    "compaction_keeps_boundaries",
    "compaction_determined",
    "traces_compacted"
   ],
   "note": "Described by the ways from every kept span to the root."
  },
  {
   "property": "C40",
   "status": "proved",
   "theorems": [
    "consumed_is_uncovered",
    "uncovered_count",
    "consumed_formula",
    "outliving_child_refuted",
    "outliving_child_wraps"
   ],
   "note": "The unconditional claim is refuted: a child outliving its parent reduces or wraps the value."
  },
  {
   "property": "C41",
   "status": "proved",
   "theorems": [
    "most_consuming_service",
    "most_consuming_tie",
    "spans_are_preorder"
   ],
   "note": "Totals are modulo 2^64 as in the code."
  },
  {
   "property": "C42",
   "status": "proved",
   "theorems": [
    "slow_traces_are_slowest"
   ],
   "note": "Durations are uint64 differences as in the code."
  },
  {
   "property": "C43",
   "status": "proved",
   "theorems": [
    "same_service_count",
    "same_service_traces"
   ],
   "note": ""
  },
  {
   "property": "C44",
   "status": "proved",
   "theorems": [
    "duration_filter_exact",
    "milliseconds_exact",
    "windows_cover",
    "last_fraction_missed",
    "fetch_ends",
    "fetch_errors"
   ],
   "note": "The gap at the end is a finding."
  },
  {
   "property": "C45",
   "status": "proved",
   "theorems": [
    "hourly_loads",
    "sample_counted_once",
    "loads_conserved",
    "fractional_zone_loses",
    "foreign_samples_lost"
   ],
   "note": "Loads are any type with an addition and a comparison, so the float64 additions are followed in order. Zones have a fixed offset (no daylight saving)."
  },
  {
   "property": "C46",
   "status": "proved",
   "theorems": [
    "half_days_tile",
    "week_is_fetched",
    "fetch_error_origin",
    "pi_dig_result",
    "last_row_unfetched"
   ],
   "note": ""
  },
  {
   "property": "C47",
   "status": "proved",
   "theorems": [
    "metrics_converted",
    "missing_key_panics"
   ],
   "note": ""
  },
  {
   "property": "C48",
   "status": "proved",
   "theorems": [
    "metadata_query_exact",
    "metadata_query_injective",
    "metadata_query_empty"
   ],
   "note": "The two templates are the source texts; reading covers literals and rules out identifiers, comments and escapes. Finding: with no candidate table the query holds IN ()."
  },
  {
   "property": "C49",
   "status": "proved",
   "theorems": [
    "connection_string_decodes",
    "connection_string_exact",
    "connection_values_in_force",
    "connection_string_refuted",
    "pg_config_exact"
   ],
   "note": "Proved for values without quote and backslash, and shown to hold only for them; the general claim is refuted with examples. The reader is lib/pq's, restated."
  },
  {
   "property": "C50",
   "status": "proved",
   "theorems": [
    "examine_output_parts",
    "examine_output_differs",
    "examine_output_injective",
    "examine_output_kept"
   ],
   "note": ""
  },
  {
   "property": "C51",
   "status": "proved",
   "theorems": [
    "option_survives_shell",
    "command_survives_shell",
    "offered_command_round_trip",
    "empty_selection_refused",
    "index_option_escape_refuted"
   ],
   "note": "The shell reader follows POSIX; history expansion of interactive shells (an exclamation mark inside double quotes) and the impossibility of NUL in arguments are outside it. index_option_escape_refuted shows that -i texts are not escaped."
  },
  {
   "property": "C52",
   "status": "proved",
   "theorems": [
    "fold_lossless",
    "fold_compact",
    "fold_repeat_place"
   ],
   "note": ""
  },
  {
   "property": "C53",
   "status": "proved",
   "theorems": [
    "diagram_faithful",
    "diagram_balanced",
    "diagram_injective",
    "diagram_single",
    "diagram_names_refuted"
   ],
   "note": "Names must be drawable; diagram_names_refuted shows that names with line ends break the nesting. Mermaid's own grammar of actor names is not modelled."
  },
  {
   "property": "C54",
   "status": "proved",
   "theorems": [
    "timeline_numbered",
    "timeline_times",
    "drawn_nested"
   ],
   "note": "One bar per node, numbered 0..n-1 in pre-order; every bar begins when the last child has ended. Times are exact rationals instead of doubles; Array.sort is any sorting permutation."
  },
  {
   "property": "C55",
   "status": "proved",
   "theorems": [
    "load_series_aligned",
    "load_series_times",
    "command_rows_distinct",
    "padding_time_refuted",
    "repeated_load_misaligns_refuted"
   ],
   "note": "Number, values and data of the points hold for every table with one load per database and SQL in a row, which every table of the command is (command_rows_distinct). The time of a point is its slot's once the series has begun; before that it is the time of the slot in which the series begins, so the expected statement is refuted."
  },
  {
   "property": "C56",
   "status": "proved",
   "theorems": [
    "nothing_to_suggest_refuted"
   ],
   "note": "The claim is false; the theorem gives the counterexample for MySQL and PostgreSQL. sqlx.In's refusal of an empty list is taken from its documentation."
  },
  {
   "property": "C57",
   "status": "proved",
   "theorems": [
    "suggestions_useful_and_new"
   ],
   "note": ""
  },
  {
   "property": "C58",
   "status": "proved",
   "theorems": [
    "mysql_scope_exact",
    "mysql_scope_uses",
    "mysql_scope_sound",
    "mysql_using_ignored"
   ],
   "note": ""
  },
  {
   "property": "C59",
   "status": "proved",
   "theorems": [
    "mysql_unsupported_rejected",
    "mysql_supported_accepted",
    "mysql_with_rejected",
    "mysql_with_rejected_refuted"
   ],
   "note": "WITH can slip through: counterexample"
  },
  {
   "property": "C60",
   "status": "proved",
   "theorems": [
    "mysql_subqueries_ignored"
   ],
   "note": ""
  },
  {
   "property": "C61",
   "status": "proved",
   "theorems": [
    "mysql_suggestions_justified"
   ],
   "note": ""
  },
  {
   "property": "C62",
   "status": "proved",
   "theorems": [
    "mysql_suggest_crash"
   ],
   "note": ""
  },
  {
   "property": "C63",
   "status": "proved",
   "theorems": [
    "mysql_every_use_is_a_base_column",
    "mysql_valid_statements_refuted"
   ],
   "note": ""
  },
  {
   "property": "C64",
   "status": "proved",
   "theorems": [
    "pg_scope_exact"
   ],
   "note": "For supported statements; what is not supported is C65."
  },
  {
   "property": "C65",
   "status": "proved",
   "theorems": [
    "pg_unsupported_refused",
    "pg_with_refused_refuted"
   ],
   "note": "WITH is refused iff there is something with a select list below; refuted for WITH x AS (VALUES ..)."
  },
  {
   "property": "C66",
   "status": "proved",
   "theorems": [
    "pg_table_names_exact",
    "pg_table_names_refused",
    "pg_table_names_sound",
    "pg_table_names_refuted"
   ],
   "note": "Exact against the collector's reading of WITH; sound against SQL's; completeness against SQL's is refuted."
  },
  {
   "property": "C67",
   "status": "proved",
   "theorems": [
    "pg_suggest_never_crashes",
    "pg_suggest_never_crashes_refuted",
    "pg_suggest_several_reported"
   ],
   "note": "False in general; true for supported statements with derived tables in the last FROM item."
  },
  {
   "property": "C68",
   "status": "proved",
   "theorems": [
    "pg_suggestions_justified"
   ],
   "note": "For supported statements. The table is read according to the collector's rule, which implies SQL's (C66)."
  },
  {
   "property": "C69",
   "status": "proved",
   "theorems": [
    "pg_scope_tables_listed",
    "pg_scope_tables_listed_refuted"
   ],
   "note": "For the FROM clause of the statement itself; true up to normalisation."
  },
  {
   "property": "C70",
   "status": "proved",
   "theorems": [
    "view_mirrors_trace",
    "view_fields",
    "view_ids_distinct",
    "compact_view"
   ],
   "note": ""
  },
  {
   "property": "C71",
   "status": "proved",
   "theorems": [
    "dig_times",
    "dig_result"
   ],
   "note": ""
  },
  {
   "property": "C72",
   "status": "proved",
   "theorems": [
    "metadata_requests_read_only",
    "column_rows_exact",
    "index_rows_exact"
   ],
   "note": "pq.StringArray.Scan and the HTTP transport are parameters."
  },
  {
   "property": "C73",
   "status": "proved",
   "theorems": [
    "hasura_suggest_read_only",
    "hasura_suggestions_justified",
    "hasura_suggest_never_crashes",
    "hasura_odd_name_refused"
   ],
   "note": "Same statement fragment as C68."
  },
  {
   "property": "C74",
   "status": "proved",
   "theorems": [
    "dsn_exact",
    "dsn_unambiguous",
    "dsn_refuted",
    "my_config_exact",
    "hasura_config_exact"
   ],
   "note": "The reader is go-sql-driver's, restated as a relation. Finding: an unescaped slash in DB_PARAM_TEXT (loc=Asia/Tokyo) changes the database."
  },
  {
   "property": "C75",
   "status": "proved",
   "theorems": [
    "add_index_sql_exact",
    "add_index_sql_unambiguous",
    "hasura_request_words"
   ],
   "note": ""
  },
  {
   "property": "C76",
   "status": "proved",
   "theorems": [
    "trace_to_diagram"
   ],
   "note": ""
  },
  {
   "property": "C77",
   "status": "proved",
   "theorems": [
    "plan_page_total",
    "highlighted_text"
   ],
   "note": "The depth-first walk with an explicit stack of ExplainText and the recursive numbering of ExplainTree give every node the same number."
  },
  {
   "property": "C78",
   "status": "proved",
   "theorems": [
    "mysql_plan_shown",
    "pg_plan_shown",
    "hasura_plan_hidden_refuted"
   ],
   "note": "True for MySQL and for PostgreSQL plans with summary; refuted for Hasura, whose plans have no summary: a plan of one node is not shown."
  },
  {
   "property": "C79",
   "status": "proved",
   "theorems": [
    "mysql_view_roundtrip",
    "pg_view_roundtrip"
   ],
   "note": "Chained with the parsers: for every plan printed, the tree handed to the page has its shape, texts, tables and numbers."
  },
  {
   "property": "C80",
   "status": "proved",
   "theorems": [
    "mysql_end_running_time",
    "mysql_end_agrees",
    "mysql_end_no_runs_refuted"
   ],
   "note": "Exact arithmetic. The two computations differ only for a node with times and zero loops, which MySQL prints as never executed."
  },
  {
   "property": "C81",
   "status": "proved",
   "theorems": [
    "ranking_top"
   ],
   "note": "For any order of object keys and any correct sort."
  },
  {
   "property": "C82",
   "status": "proved",
   "theorems": [
    "raw_loads_picked",
    "fetched_id_known_refuted"
   ],
   "note": "That an id fetched for the shown hour is always known to the page is refuted."
  },
  {
   "property": "C83",
   "status": "proved",
   "theorems": [
    "databases_listed",
    "opening_chart"
   ],
   "note": ""
  },
  {
   "property": "C84",
   "status": "proved",
   "theorems": [
    "dig_command_survives_shell",
    "dig_command_escape_refuted",
    "dig_command_other_sql"
   ],
   "note": "True for texts that mean themselves inside double quotes; refuted in general, the text is not escaped."
  },
  {
   "property": "C85",
   "status": "proved",
   "theorems": [
    "report_text_read_back",
    "report_text_stays_inside"
   ],
   "note": "the writer is encoding/json with HTML escaping; the reader is an independent reader of object literals; the text of numbers is a parameter asked to be readable"
  },
  {
   "property": "C86",
   "status": "proved",
   "theorems": [
    "report_opens_its_page",
    "mysql_plan_fits"
   ],
   "note": "for data without index targets of no columns, an examination with results, variables without a member __proto__; the formatter of SQL (sql-formatter) is a parameter"
  },
  {
   "property": "C87",
   "status": "proved",
   "theorems": [
    "suggest_report_cards",
    "no_suggestion_no_card_refuted",
    "variables_shown_refuted"
   ],
   "note": "the last clause is false: MySQL and Hasura show an empty suggestion card; a variable named __proto__ is not shown"
  },
  {
   "property": "C88",
   "status": "proved",
   "theorems": [
    "examination_page_opens"
   ],
   "note": "an iff: the examination of nothing (no -i, no safe suggestion) leaves null in the report and the page breaks"
  },
  {
   "property": "C89",
   "status": "proved",
   "theorems": [
    "traces_table_longest_first"
   ],
   "note": ""
  },
  {
   "property": "C90",
   "status": "proved",
   "theorems": [
    "trace_link_below_ui",
    "trace_link_below_path_refuted"
   ],
   "note": "true for a URL of scheme and host; false for a UI below a base path, which the link drops"
  },
  {
   "property": "C91",
   "status": "proved",
   "theorems": [
    "metadata_names_are_arguments",
    "metadata_conditions"
   ],
   "note": "sqlx.In and Rebind are restated; the text is read by the parser of SqlServer.v."
  },
  {
   "property": "C92",
   "status": "proved",
   "theorems": [
    "mysql_schemas_from_catalog",
    "mysql_views_refused_refuted",
    "mysql_kept_case_refuted"
   ],
   "note": "Proved for names the server's collation keeps apart. Refuted: views are refused (MySQL lists their columns too); a server that ignores but keeps the case of names (lower_case_table_names=2) has its tables refused as views."
  },
  {
   "property": "C93",
   "status": "proved",
   "theorems": [
    "mysql_indexes_from_catalog",
    "mysql_functional_index_fails"
   ],
   "note": "Whenever reading succeeds. An index on an expression makes it fail altogether."
  },
  {
   "property": "C94",
   "status": "proved",
   "theorems": [
    "pg_schemas_from_catalog",
    "hasura_schemas_from_catalog",
    "pg_partitioned_refused"
   ],
   "note": "Columns are listed once for each index with them, dropped ones as well; partitioned tables are refused as views."
  },
  {
   "property": "C95",
   "status": "proved",
   "theorems": [
    "pg_indexes_from_catalog",
    "hasura_indexes_from_catalog",
    "array_read_back"
   ],
   "note": "pg_get_indexdef, array_out and pq.StringArray.Scan are restated."
  },
  {
   "property": "C96",
   "status": "proved",
   "theorems": [
    "mysql_suggestions_against_catalog",
    "mysql_prefix_index_refuted"
   ],
   "note": "Refuted: a candidate is left out only for an index on the whole columns (an index on prefixes counts as one)."
  },
  {
   "property": "C97",
   "status": "proved",
   "theorems": [
    "pg_suggestions_against_catalog",
    "hasura_suggestions_against_catalog",
    "pg_quoted_column_refuted",
    "pg_partial_index_refuted",
    "pg_included_columns_refuted"
   ],
   "note": "Existing indexes on plain columns whose names need no quotes are never suggested. Refuted: the same for names that need quotes; a candidate is left out only for an equal index (partial indexes and INCLUDE columns count too)."
  },
  {
   "property": "C98",
   "status": "proved",
   "theorems": [
    "search_path_not_sent",
    "session_path_from_params",
    "schema_read_is_meant",
    "several_schemas_refused",
    "qualified_refused",
    "search_path_refuted"
   ],
   "note": "The claim as stated is false (search_path_refuted); proved: when it holds, and what is refused."
  },
  {
   "property": "C99",
   "status": "proved",
   "theorems": [
    "mysql_conversation",
    "pg_conversation"
   ],
   "note": "The world is any state machine answering open, select, exec, write and close; the grammar of conversations is in ProgramSpec.v."
  },
  {
   "property": "C100",
   "status": "proved",
   "theorems": [
    "talk_executes",
    "talk_questions",
    "talk_writes",
    "talk_success",
    "mysql_talk",
    "pg_talk"
   ],
   "note": ""
  },
  {
   "property": "C101",
   "status": "proved",
   "theorems": [
    "talk_explains_first",
    "mysql_refused_has_run",
    "pg_refused_has_run",
    "pg_refused_unharmed_refuted"
   ],
   "note": "The claim as stated is false (pg_refused_unharmed_refuted); proved: what has been sent when a query is refused."
  },
  {
   "property": "C102",
   "status": "proved",
   "theorems": [
    "mysql_report"
   ],
   "note": ""
  },
  {
   "property": "C103",
   "status": "proved",
   "theorems": [
    "pg_report"
   ],
   "note": "For statements of the supported kind (C24-C26)."
  },
  {
   "property": "C104",
   "status": "proved",
   "theorems": [
    "hasura_conversation",
    "hasura_harmless",
    "hasura_success"
   ],
   "note": ""
  },
  {
   "property": "C105",
   "status": "proved",
   "theorems": [
    "hasura_report",
    "hasura_plan_shown"
   ],
   "note": "For statements of the supported kind (C24-C26). The plan part is for plans without summary lines, which is what Hasura's EXPLAIN gives."
  },
  {
   "property": "C106",
   "status": "proved",
   "theorems": [
    "hasura_times_any_answer",
    "hasura_failed_query_timed_refuted"
   ],
   "note": "False as stated: a query that failed is timed; the answers that count are characterised."
  },
  {
   "property": "C107",
   "status": "proved",
   "theorems": [
    "variables_read",
    "variables_sent",
    "variables_exact",
    "variables_exact_refuted"
   ],
   "note": "Exactness is false beyond 53 bits."
  },
  {
   "property": "C108",
   "status": "proved",
   "theorems": [
    "hasura_one_query",
    "hasura_null_crashes",
    "hasura_status_reported"
   ],
   "note": ""
  },
  {
   "property": "C109",
   "status": "proved",
   "theorems": [
    "mysql_seen",
    "pg_seen",
    "hasura_seen"
   ],
   "note": "For Hasura success of a request is status 200, with JSON where SQL was sent (C106)."
  },
  {
   "property": "C110",
   "status": "proved",
   "theorems": [
    "jaeger_talks"
   ],
   "note": "The flags' count must fit 32 bits and the milliseconds the range of time.Duration; see count_asked_refuted in C112."
  },
  {
   "property": "C111",
   "status": "proved",
   "theorems": [
    "jaeger_talks",
    "jaeger_page_opens"
   ],
   "note": "jaeger_talks ties the report to the answers, jaeger_page_opens the page to the report."
  },
  {
   "property": "C112",
   "status": "proved",
   "theorems": [
    "jaeger_finds_all",
    "received_has_rows",
    "slow_threshold_refuted",
    "count_asked_refuted"
   ],
   "note": "The two parts marked false are refuted with concrete runs."
  },
  {
   "property": "C113",
   "status": "proved",
   "theorems": [
    "pi_talks",
    "empty_output_refused_late"
   ],
   "note": ""
  },
  {
   "property": "C114",
   "status": "proved",
   "theorems": [
    "pi_success_writes",
    "pi_shows_loads",
    "pi_page_opens",
    "further_instances_missed",
    "empty_output_refused_late"
   ],
   "note": "The parts marked false are refuted: further_instances_missed for every service that answers with 100 instances, empty_output_refused_late by a run."
  },
  {
   "property": "C115",
   "status": "proved",
   "theorems": [
    "pi_chart_follows_checks",
    "pi_selection_checked",
    "pi_plain_command",
    "pi_tok_command",
    "pi_click_breaks",
    "pi_table_never_empty",
    "pi_toggle",
    "ranking_command_checked_refuted",
    "tok_command_checked_refuted"
   ],
   "note": "The two false claims are refuted by concrete clicks; the other theorems hold of every state reached from the mounted component, for rows with one load per database and SQL (C55 shows the command's rows are such)."
  },
  {
   "property": "C116",
   "status": "proved",
   "theorems": [
    "pi_tabs_apart",
    "pi_tabs_forget"
   ],
   "note": "Every reached state of the page; C115 applies to each of its charts."
  },
  {
   "property": "C117",
   "status": "proved",
   "theorems": [
    "logged_path_names_file",
    "logged_absolute_wrong"
   ],
   "note": "path.Clean and path.Join are modelled on the parts of a path; directories have no links."
  },
  {
   "property": "C118",
   "status": "proved",
   "theorems": [
    "hasura_url",
    "curl_url_agrees",
    "curl_url_refuted",
    "escaped_slash_lost"
   ],
   "note": "Starts from the URL as url.Parse gives it; the false claim is refuted by concrete URLs."
  },
  {
   "property": "C119",
   "status": "proved",
   "theorems": [
    "load_max_shown",
    "load_sum_shown",
    "load_sql_becomes_markup",
    "hover_timeline_shown",
    "hover_ranking_shown",
    "hover_timeline_refuted",
    "load_sql_shown_refuted"
   ],
   "note": "Not every point answers and not every SQL is shown: both refuted with a counterexample, with the exact conditions proved."
  },
  {
   "property": "C120",
   "status": "proved",
   "theorems": [
    "postgres_tooltip_shown",
    "mysql_tooltip_shown",
    "hasura_tooltip_shown",
    "mysql_tooltip_brackets_refuted",
    "postgres_tooltip_time_refuted"
   ],
   "note": "Texts with markup and PostgreSQL times after a first row at 0 are counterexamples, proved as refutations."
  },
  {
   "property": "C121",
   "status": "proved",
   "theorems": [
    "chart_points",
    "mysql_bar_labels",
    "pg_bar_labels",
    "mysql_title_unique",
    "pg_title_unique",
    "mysql_title_value_refuted"
   ],
   "note": "mysql_bar_labels and pg_bar_labels go from the printed text to the labels of the chart; the titles are specified by TitleSpec.v without regular expressions, and mysql_title_unique/pg_title_unique show the specification leaves no choice. mysql_title_value_refuted: a colon inside a literal cuts the title there."
  },
  {
   "property": "C122",
   "status": "proved",
   "theorems": [
    "mysql_fault_told",
    "pg_fault_told",
    "hasura_fault_told",
    "every_fault_told_refuted"
   ],
   "note": "The three commands at their first failed act. An answer of status 200 that is not JSON is not counted as a failure of the server. every_fault_told_refuted: a second failure (the drop after a failed query) is not told."
  },
  {
   "property": "C123",
   "status": "proved",
   "theorems": [
    "mysql_scopes_refused_with",
    "mysql_names_refused_with"
   ],
   "note": "All messages; places by a separate specification. Text positions and type names inside two messages are left out. Finding: the errors of lib/errors.go read ': message', and the unexpected-child error names neither node."
  },
  {
   "property": "C124",
   "status": "proved",
   "theorems": [
    "pg_scopes_refused_with",
    "pg_names_refused_with"
   ],
   "note": "All messages. DEFAULT, MINVALUE and MAXVALUE are told as such only where the walker does not look (OFFSET, ORDER BY of functions and windows); elsewhere the statement is refused with 'unsupported node found', and so is every NATURAL JOIN."
  },
  {
   "property": "C125",
   "status": "proved",
   "theorems": [
    "build_says",
    "mysql_refusal_words",
    "pg_refusal_words",
    "hasura_refusal_words"
   ],
   "note": "PostgreSQL and Hasura: under distinct addresses of the Select nodes, as for the other theorems. Finding: a statement reading no table or needing no index ends with 'failed to build query to get table schema: empty slice passed to 'in' query'."
  },
  {
   "property": "C126",
   "status": "proved",
   "theorems": [
    "mysql_told",
    "pg_told",
    "hasura_told"
   ],
   "note": "Every examination statement is directly preceded by its announcement. When two different steps are the same statement text, the announcement is of one of them. The order of the table map and the sort of the results are any."
  },
  {
   "property": "C127",
   "status": "proved",
   "theorems": [
    "mysql_logged",
    "pg_logged",
    "hasura_logged"
   ],
   "note": "Percentages are exact arithmetic with ties away from zero instead of float64 (stated for times not negative). Finding: an original time of 0 ms is logged as NaN% or -Inf%."
  },
  {
   "property": "C128",
   "status": "proved",
   "theorems": [
    "mysql_seen",
    "pg_seen",
    "hasura_seen"
   ],
   "note": "The text of a panic and what %+v adds with --verbose are left out."
  },
  {
   "property": "C129",
   "status": "proved",
   "theorems": [
    "mysql_password_unseen",
    "pg_password_unseen",
    "transport_faithful",
    "secret_unseen",
    "url_shown"
   ],
   "note": "Premise: the server answers the opening of both connections alike. Finding: a password in HASURA_URL is shown with --verbose."
  },
  {
   "property": "C130",
   "status": "proved",
   "theorems": [
    "jaeger_diary",
    "pi_diary"
   ],
   "note": "The texts of times are any functions of the time (the zone of a time is left out). The lines of Performance Insights do not name the database."
  },
  {
   "property": "C131",
   "status": "proved",
   "theorems": [
    "stream_whole"
   ],
   "note": "A stream that goes on for ever gives no answer (None)."
  },
  {
   "property": "C132",
   "status": "proved",
   "theorems": [
    "mysql_killed",
    "pg_killed",
    "hasura_killed"
   ],
   "note": "An index counts as left when its creation was sent and its removal was not, whatever the server answered."
  },
  {
   "property": "C133",
   "status": "proved",
   "theorems": [
    "report_file",
    "report_file_made",
    "earlier_report_lost"
   ],
   "note": "Finding: the earlier report is lost when writing fails. Premises: the numbers of the data are written as numbers, the page knows its data (C86), the bundles do not hold their own end tag."
  },
  {
   "property": "C134",
   "status": "proved",
   "theorems": [
    "mysql_on_disk",
    "pg_on_disk",
    "hasura_on_disk",
    "jaeger_on_disk",
    "pi_on_disk"
   ],
   "note": "The world is any state machine that writes reports as CreateHtml does and changes no file otherwise; disk_run_ex, disk_run_readable show a run."
  },
  {
   "property": "C135",
   "status": "proved",
   "theorems": [
    "command_line_exact",
    "help_exact",
    "runs_only_complete",
    "suggest_options_read",
    "dig_options_read",
    "extra_words_ignored"
   ],
   "note": "cobra v1.6.1 and pflag v1.0.5 are restated (trusted); strconv.ParseInt and %q are parameters; extra_words_ignored is the finding that words that are no options are dropped silently"
  },
  {
   "property": "C136",
   "status": "proved",
   "theorems": [
    "offered_command_understood",
    "dig_command_refused"
   ],
   "note": "dig_command_refused is a finding: the command offered by the Performance Insights page lacks the name of the database and is always refused"
  },
  {
   "property": "C137",
   "status": "proved",
   "theorems": [
    "mysql_next_run",
    "pg_next_run",
    "hasura_next_run"
   ],
   "note": "For targets whose names are made of word characters (others cannot be written as an -i option: C51). The parsers, the orders of maps, sorting, the SQL formatter and the servers are arbitrary; the examples beside it compute a whole session for each of the three commands."
  },
  {
   "property": "C138",
   "status": "proved",
   "theorems": [
    "only_what_is_asked"
   ],
   "note": "The AWS and Jaeger clients are arbitrary functions; AWS requests of this program only read. Log lines are not files. The path written is proved to be a word of the line or its end."
  },
  {
   "property": "C139",
   "status": "proved",
   "theorems": [
    "refused_line"
   ],
   "note": "For lines that begin with the path of a command; other lines are covered by runs_only_complete (C135)."
  },
  {
   "property": "C140",
   "status": "proved",
   "theorems": [
    "mysql_line",
    "pg_line",
    "hasura_line",
    "jaeger_line",
    "insights_line",
    "print_line"
   ],
   "note": "Composition of C135 with the conversations C99, C104, C110, C113. jaeger_line needs a count of 32 bits and milliseconds within time.Duration for its last part, as C110."
  },
  {
   "property": "C141",
   "status": "proved",
   "theorems": [
    "timeline_objects",
    "ranking_objects",
    "raw_loads_objects",
    "drawn_again_refuted",
    "every_database_ranked_refuted"
   ],
   "note": "The charts over objects with inherited members, shared series and members left on the global function: each is the chart of LoadCharts.v for all tables without such names, and the exact deviation otherwise. The two refuted theorems are the finding for a database called constructor."
  },
  {
   "property": "C142",
   "status": "proved",
   "theorems": [
    "object_keys",
    "ties_in_ranking",
    "ties_in_raw_loads"
   ],
   "note": "Array.prototype.sort is assumed stable (ECMA-262 since 2019); sort_by is shown to be such a sort."
  },
  {
   "property": "C143",
   "status": "proved",
   "theorems": [
    "utf8_one_to_one",
    "utf8_operations"
   ],
   "note": "Justifies modelling strings as lists of code points; encode and decode restate unicode/utf8."
  },
  {
   "property": "C144",
   "status": "proved",
   "theorems": [
    "any_bytes_read",
    "report_of_bytes",
    "texts_kept",
    "bytes_kept_refuted"
   ],
   "note": "That a report always tells the data is refuted: bytes that are not UTF-8 become U+FFFD."
  },
  {
   "property": "C145",
   "status": "proved",
   "theorems": [
    "fl_rounds",
    "total_time_float",
    "percent_float",
    "percent_half_refuted"
   ],
   "note": "Float arithmetic without overflow; percent_half_refuted shows why a percentage between two decimals is not determined by the exact value."
  },
  {
   "property": "C146",
   "status": "proved",
   "theorems": [
    "loads_float",
    "ranking_float",
    "bars_float",
    "ranking_exact_refuted"
   ],
   "note": "The order is right up to the rounding; ranking_exact_refuted gives samples whose order is wrong by less than that."
  },
  {
   "property": "C147",
   "status": "proved",
   "theorems": [
    "fixed_text",
    "decimal_unique",
    "utc_right",
    "calendar_unique",
    "load_text",
    "tooltip_text",
    "raw_table_text"
   ],
   "note": "toFixed and toUTCString are restated from ECMAScript; the calendar is specified by the successor of a day."
  },
  {
   "property": "C148",
   "status": "proved",
   "theorems": [
    "utf16_right",
    "legend_text",
    "legend_same",
    "legends_distinct",
    "legends_distinct_refuted",
    "heading_text",
    "heading_same",
    "heading_same_refuted",
    "databases_order",
    "databases_same",
    "databases_same_refuted"
   ],
   "note": "Findings: different SQLs can have the same legend; a character can be cut in two and is then seen as U+FFFD; names with characters beyond U+FFFF can be sorted before ones from U+E000 on. The refuted theorems show the cases, the others say exactly what holds."
  },
  {
   "property": "C149",
   "status": "proved",
   "theorems": [
    "after_defined",
    "charts_follow",
    "charts_alive",
    "defaults_kept",
    "closed_charts",
    "alive_open_refuted"
   ],
   "note": "Induction over what happens, with JavaScript objects as cells of a heap. Finding: charts of Performance Insights are never destroyed when a tab is left (alive_open_refuted); those of plans are (closed_charts)."
  },
  {
   "property": "C150",
   "status": "proved",
   "theorems": [
    "page_total",
    "page_charts",
    "live_bars"
   ],
   "note": "Composition of C115/C116 (PiPage) with C149 (ChartLife). Finding: two charts leak for each change of tab."
  }
 ]
}
