{"id": "C01", "title": "Accepted index text yields only word identifiers", "statement": "Whenever NewIndexTargetFromText accepts a text, the table name and every column name of the returned target are non-empty strings over [0-9A-Za-z_], there is at least one column, and both are literal pieces of the text.", "quantifier": "every text (any sequence of Unicode code points, including newlines, quotes, ';')", "why_tests_cant": "The set of hostile texts is infinite; a table of examples says nothing about the ones not listed.", "anchors": ["database/dmodel/index_target.go:NewIndexTargetFromText", "database/dmodel/index_column.go:NewIndexColumn"]}
{"id": "C02", "title": "Index option text round trip", "statement": "Rendering any target with word-only names as table:col+col... (what the report page prints for -i) and giving it back to NewIndexTargetFromText returns exactly that target.", "quantifier": "every table name and every non-empty list of column names made of word characters", "why_tests_cant": "Holds for all names and any number of columns; needs the regexp's greedy/lazy choice to be right on every length.", "anchors": ["database/dmodel/index_target.go:NewIndexTargetFromText", "client/src/models/IndexTarget.ts:toGrIndexOption"]}
{"id": "C03", "title": "Exactly which index texts are accepted", "statement": "A single-line text is accepted iff it is word:word(+word)*. For multi-line texts the claim 'the whole text is the index description' is false: other lines are silently ignored.", "quantifier": "every text", "why_tests_cant": "An iff over all strings; the newline hole is invisible to example tests that use one line.", "anchors": ["database/dmodel/index_target.go:indexTargetReg,NewIndexTargetFromText"]}
{"id": "C04", "title": "Safe targets are free of SQL metacharacters", "statement": "If IsSafe reports true, the table name is a non-empty word and every column name consists of word characters only; SafeName always yields word characters, one per code point, is idempotent, and leaves word names unchanged.", "quantifier": "every index target", "why_tests_cant": "Quantifies over all names in all scripts.", "anchors": ["database/dmodel/index_target.go:IsSafe", "database/dmodel/index_column.go:SafeName"]}
{"id": "C05", "title": "Temporary index name is always usable", "statement": "The name given to CreateIndex/DropIndex consists of word characters only and has at most 40 bytes (below the 63/64 byte limits of PostgreSQL/MySQL), for any columns and any random number; if not truncated it is id_col1_..._coln.", "quantifier": "every run id, every target, every random draw", "why_tests_cant": "Depends on random numbers and arbitrary names.", "anchors": ["database/dservice/examiner.go:examine,maxIdxNameLen"]}
{"id": "C06", "title": "No temporary index is left behind", "statement": "In a run of the examiner every successful CreateIndex is followed by exactly one DropIndex of the same name and target before anything else is created and before Run returns, also when the measured query fails; at every instant (crash point) at most one temporary index exists; if all drops succeed the database's index set after Run equals the one before.", "quantifier": "every list of targets, every pattern of failures, every prefix of the execution", "why_tests_cant": "Needs all failure patterns and all crash points.", "anchors": ["database/dservice/examiner.go:Run,examine"]}
{"id": "C07", "title": "Only own indexes are dropped", "statement": "DropIndex is called only with a name and target for which CreateIndex has just succeeded in the same run; a failed CreateIndex is never followed by a drop, so an index that existed before the run is never removed.", "quantifier": "every list of targets, every failure pattern, every initial database", "why_tests_cant": "Safety over all histories.", "anchors": ["database/dservice/examiner.go:examine"]}
{"id": "C08", "title": "Examination outcome is faithful", "statement": "Run returns success iff every Execute, CreateIndex and DropIndex it issued succeeded; then the result lists exactly the given targets in the given order, each with the time measured while (and only while) its own index existed, plus the time measured with no index. On the first failure it stops, issues nothing but the pending drop, and returns the first error (a later drop error is swallowed).", "quantifier": "every list of targets and every failure pattern", "why_tests_cant": "All interleavings of failures.", "anchors": ["database/dservice/examiner.go:Run,examine", "database/dmodel/examination_result.go"]}
{"id": "C09", "title": "Statements sent by the examiner cannot be altered by names", "statement": "For every target the suggest commands examine (parsed from -i or filtered by IsSafe) the CREATE/DROP INDEX text sent to MySQL, PostgreSQL and Hasura tokenises to exactly the intended statement: keywords plus the table, index and column names as single identifiers.", "quantifier": "every accepted target and generated index name", "why_tests_cant": "Injection freedom is a for-all over inputs.", "anchors": ["database/mysql/mservice/index_examiner.go", "database/postgres/pservice/index_examiner.go", "database/hasura/hservice/index_examiner.go"]}
{"id": "C10", "title": "DDL only when asked for, and only for the requested indexes", "statement": "The suggest commands issue no CREATE/DROP INDEX unless examination was requested; if -i targets were given exactly those are examined, else exactly the safe suggestions; a malformed -i text makes the MySQL and PostgreSQL commands fail before any database access. For the Hasura command the last claim is false.", "quantifier": "every flag combination, query, suggestion list and database behaviour", "why_tests_cant": "Ranges over all flag/DB-behaviour combinations.", "anchors": ["cmd/db/suggest/mysql.go", "cmd/db/suggest/postgres.go", "cmd/db/suggest/hasura/postgres.go"]}
{"id": "C11", "title": "Suggested indexes refer to existing columns", "statement": "Every index suggested for a statement scope is on a table of the given schema and all of its columns are columns of that table in the schema.", "quantifier": "every schema, every (nested, lateral, correlated) scope, every map iteration order", "why_tests_cant": "Infinite family of nested queries and schedules.", "anchors": ["database/dservice/dparser/build_table_fields.go", "database/dservice/dparser/index_target_builder.go:Build"]}
{"id": "C12", "title": "Suggested indexes are well formed", "statement": "Every suggested index has at least one column, no column twice, and is not made of primary key columns only.", "quantifier": "every schema and scope, every map iteration order", "why_tests_cant": "For all scopes and all iteration orders.", "anchors": ["database/dservice/dparser/index_target_builder.go:buildIndexComposition,removePkOnlyFields"]}
{"id": "C13", "title": "Exact set of candidate indexes", "statement": "For a table whose referenced columns are conditions C and plain references R, the candidates are exactly: every arrangement (ordered, without repetition) of a non-empty subset of C; and, if R is non-empty, every permutation of all of C followed by R sorted by name; each exactly once; minus the primary-key-only ones.", "quantifier": "every finite set of referenced columns and every iteration order of the set", "why_tests_cant": "Factorially many candidates for unbounded sets.", "anchors": ["database/dservice/dparser/index_target_builder.go:compositeFieldColumns,extractEfficientIndexes"]}
{"id": "C14", "title": "Suggestion list is sorted, duplicate free and reproducible", "statement": "For one statement scope the suggestions are sorted by table, number of columns, then column names, contain no duplicate, and do not depend on map iteration order or on the (unstable) sort, provided unqualified column names are unambiguous. Without that proviso reproducibility is false (e.g. JOIN ... USING); for several scopes duplicates are possible.", "quantifier": "every schema, scope and pair of schedules", "why_tests_cant": "A hyperproperty over all pairs of schedules.", "anchors": ["database/dservice/dparser/index_target_builder.go:Build", "database/dservice/dparser/index_target_table.go:SortIndexTargetTable", "database/dservice/dparser/build_table_fields.go:getColumnInfosFromTableOutputCols"]}
{"id": "C15", "title": "Sharing of slice memory never corrupts a candidate", "statement": "Building candidates by appending in place to slices that share backing arrays gives the same candidates as building each by copying, whatever capacity the runtime picks when growing.", "quantifier": "every field set, iteration order and growth policy", "why_tests_cant": "Aliasing bugs depend on capacities chosen by the runtime.", "anchors": ["database/dservice/dparser/index_target_builder.go:compositeFieldColumns"]}
{"id": "C16", "title": "A column is counted once and conditions win", "statement": "Per table each referenced column is recorded once; it is recorded as a condition iff it is used as a condition somewhere in the statement, regardless of the order of uses.", "quantifier": "every sequence of column uses, with nested scopes", "why_tests_cant": "All interleavings of uses.", "anchors": ["database/dservice/dparser/build_table_fields.go:addReferencingField,addReferencingFields"]}
{"id": "C17", "title": "Column reference resolution", "statement": "In a scope over base tables with distinct aliases, alias.column is attributed to the base table behind the alias and to nothing else; an unknown alias or column is reported as an error, never silently dropped. For correlated subqueries resolution deviates from SQL visibility: an outer alias equal to an inner table's real name is captured, and a column of the enclosing statement two levels up is rejected.", "quantifier": "every schema and scope", "why_tests_cant": "For all scopes and names.", "anchors": ["database/dservice/dparser/build_table_fields.go:refTables"]}
{"id": "C18", "title": "Suggestion building never crashes on well formed scopes", "statement": "If in every scope each derived table's scope is listed among that scope's tables, building suggestions returns a value or an error and never dereferences nil; for PostgreSQL scopes of a comma-separated FROM list the condition fails and the program crashes or loses tables.", "quantifier": "every scope tree", "why_tests_cant": "Crash freedom for all inputs.", "anchors": ["database/dservice/dparser/build_table_fields.go:calculateReferences", "database/postgres/pservice/parser/collect_stmt_scopes.go"]}
{"id": "C19", "title": "Existing indexes are filtered exactly", "statement": "Removing existing indexes keeps, in order, exactly the candidates for which no existing index on the same table (exact name) has the same columns in the same order up to letter case; a getter failure is returned as an error.", "quantifier": "every candidate list, every set of existing indexes", "why_tests_cant": "For all lists.", "anchors": ["database/dservice/existing_index_remover.go:Remove", "database/dmodel/index_target.go:HasSameIdxColumns"]}
{"id": "C20", "title": "Index rows are grouped without loss", "statement": "Grouping the (table,index,column) rows returned by MySQL gives, for rows sorted by table and index, exactly one entry per (table,index) with its columns in row order; flattening the entries gives back the rows.", "quantifier": "every row list", "why_tests_cant": "For all row lists.", "anchors": ["infra/mysql/index_info.go:toIndexInfo"]}
{"id": "C21", "title": "Schema assembly", "statement": "CreateTableSchemas returns for each requested table, in order, all and only its columns in row order with its primary key columns, or nil iff no row mentions the table; collecting schemas with a missing table yields an error.", "quantifier": "every table list and row list", "why_tests_cant": "For all row lists and interleavings of rows of different tables.", "anchors": ["database/dservice/dparser/table_schema.go:CreateTableSchemas", "database/mysql/mservice/parser/collect_table_schemas.go", "database/postgres/pservice/parser/collect_table_schemas.go"]}
{"id": "C22", "title": "MySQL: every column of an expression is collected", "statement": "For every expression built from supported operators, the collected references are exactly the column names occurring outside subqueries, with the requested kind, in source order unless MATCH occurs; one marker per subquery. False under COLLATE, := and ORDER BY inside GROUP_CONCAT, where columns are lost.", "quantifier": "every expression tree", "why_tests_cant": "Structural induction over all expressions.", "anchors": ["database/mysql/mservice/parser/collect_stmt_scopes.go:collectExprReferences"]}
{"id": "C23", "title": "MySQL: all tables of a statement are named", "statement": "CollectTableNames reports exactly the (lowercased) names of the tables read by the statement at any depth that no surrounding WITH defines, each once, and fails iff some table source is qualified by a database or unsupported. False for SQL's own WITH scoping: a table hidden by a later WITH name is not reported.", "quantifier": "every statement tree, every set iteration order", "why_tests_cant": "All nesting depths.", "anchors": ["database/mysql/mservice/parser/collect_table_names.go"]}
{"id": "C24", "title": "PostgreSQL: traversal reaches every node and reports unknown ones", "statement": "Walking a statement enters and leaves every supported node exactly once in properly nested order and reports every node of an unsupported kind, so a statement with an unsupported construct is rejected rather than half analysed.", "quantifier": "every syntax tree", "why_tests_cant": "Induction over all trees.", "anchors": ["database/postgres/pservice/ast/ast_walker.go"]}
{"id": "C25", "title": "PostgreSQL: scope collection of set operations and parenthesised statements", "statement": "Collecting scopes returns a value or an error for every statement. False: a top-level UNION or parenthesised SELECT empties the scope stack before traversal ends and crashes.", "quantifier": "every syntax tree", "why_tests_cant": "Crash freedom over all trees.", "anchors": ["database/postgres/pservice/parser/collect_stmt_scopes.go:Enter,Leave"]}
{"id": "C26", "title": "PostgreSQL: all FROM items are analysed", "statement": "All tables of the FROM clause appear in the scope. False for comma lists (only the last survives); true for a single FROM item with any nesting of joins.", "quantifier": "every FROM clause", "why_tests_cant": "All join nestings.", "anchors": ["database/postgres/pservice/parser/collect_stmt_scopes.go:collectTables"]}
{"id": "C27", "title": "PostgreSQL: every column of an expression is collected", "statement": "For every expression built from supported operators the collected references are exactly the column names occurring outside subqueries, in source order, with the requested kind.", "quantifier": "every expression tree", "why_tests_cant": "Structural induction.", "anchors": ["database/postgres/pservice/parser/collect_stmt_scopes.go:collectExprReferences"]}
{"id": "C28", "title": "MySQL EXPLAIN text becomes the plan tree", "statement": "Building the tree of an EXPLAIN ANALYZE text succeeds iff every non-empty line can be read and none is indented more than one level below its predecessor (the first at level 0); then the pre-order of the tree is the list of lines, each at the depth of its indentation; in particular printing any plan tree and parsing it gives the tree back.", "quantifier": "every text / every plan tree", "why_tests_cant": "All shapes of trees.", "anchors": ["database/mysql/mservice/explainer.go:buildExplainNode"]}
{"id": "C29", "title": "MySQL EXPLAIN line values", "statement": "A line printed in MySQL's format with plain decimal numbers parses to its table, costs, rows, times and loops as printed; parsing never crashes; absent parts stay null.", "quantifier": "every indentation, description and decimal numeral", "why_tests_cant": "All numerals and descriptions.", "anchors": ["database/mysql/mmodel/explain_analyze_result_line.go:ParseExplainAnalyzeResultLine"]}
{"id": "C30", "title": "PostgreSQL EXPLAIN lines are partitioned", "statement": "If the text has a summary line after the plan, the groups concatenated are exactly the lines before it in order, each group is non-empty and has at most one '->' line, and the summary is the rest. Without summary line (plain EXPLAIN, as returned by Hasura) this is false: the last node is lost.", "quantifier": "every list of lines", "why_tests_cant": "All interleavings of line kinds.", "anchors": ["database/postgres/pservice/explain_analyze_tree_builder.go:groupToPlanLineNodes"]}
{"id": "C31", "title": "PostgreSQL EXPLAIN nodes become the plan tree", "statement": "The pre-order of the tree is the sequence of nodes and the parent of each node is the nearest earlier node with strictly smaller indentation (the root if none); building never crashes; printing any tree and building gives it back.", "quantifier": "every sequence of node groups / every tree", "why_tests_cant": "All shapes.", "anchors": ["database/postgres/pservice/explain_analyze_tree_builder.go:collect"]}
{"id": "C32", "title": "PostgreSQL EXPLAIN line values", "statement": "A node printed in PostgreSQL's format with plain numerals parses to its table, costs, rows, width, times and loops as printed; absent parts stay null.", "quantifier": "every numeral, node name and indentation", "why_tests_cant": "All numerals.", "anchors": ["database/postgres/pmodel/explain_analyze_result_node.go:ParseExplainAnalyzeResultLineNode"]}
{"id": "C33", "title": "Per-table explain results", "statement": "Unless the plan is one the function crashes on (a node whose table continues in a first child and whose later child begins a result of its own; stated exactly), every result is a plan node's table and that node's time, every table named in the plan has a result, and results never have an empty table. The claims that it never crashes and that a maximal single-table subtree is reported once are false.", "quantifier": "every plan tree", "why_tests_cant": "All trees.", "anchors": ["database/dservice/build_single_table_explain_results.go:BuildSingleTableExplainResults"]}
{"id": "C34", "title": "Bounded heap keeps the greatest elements", "statement": "After any pushes, PopAll returns in ascending order exactly min(limit, pushed) of the pushed elements, none of the discarded ones being greater than a kept one; the heap is empty afterwards.", "quantifier": "every push sequence, every limit, every strict weak order", "why_tests_cant": "All sequences; heap-order invariant.", "anchors": ["lib/heap.go:LimitedHeap"]}
{"id": "C35", "title": "Deduplication keeps first occurrences in order", "statement": "UniqBy returns the subsequence of elements whose key did not occur earlier.", "quantifier": "every slice and key function", "why_tests_cant": "For all slices.", "anchors": ["lib/uniq.go:UniqBy"]}
{"id": "C36", "title": "Time ranges tile the interval", "statement": "For positive interval the generated start times are start+k*interval for all k with start+k*interval<end: consecutive windows touch, the union covers [start,end), none starts at or after end; for interval<=0 and start<end generation does not terminate.", "quantifier": "every start, end, interval", "why_tests_cant": "All reals/integers.", "anchors": ["lib/time.go:GenerateTimeRanges", "otel/jaeger/trace_fetcher.go"]}
{"id": "C37", "title": "Set and stack behave as such", "statement": "The set refines a mathematical set under any sequence of Add/Delete/Merge, Values is a permutation of the members; the stack is LIFO and returns nil when empty.", "quantifier": "every operation sequence", "why_tests_cant": "All histories.", "anchors": ["lib/set.go", "lib/stack.go"]}
{"id": "C38", "title": "Spans form a forest", "statement": "From any span collection whose attributes all have values: each span id appears in at most one place of exactly one tree; precisely the spans whose parent chain ends at a span without (known) parent appear; of spans with the same id the last counts; a span is a child of its parent and the children of a span are all spans naming it as parent, ordered by start time; spans on parent cycles are dropped and never cause an endless traversal. An attribute without a value (allowed by OTLP) makes the conversion panic.", "quantifier": "every span list (with duplicates, missing parents, cycles) and every map iteration order and sort", "why_tests_cant": "All graphs and schedules.", "anchors": ["otel/jaeger/v1_converter.go:toTraceTrees", "otel/omodel/trace_tree.go", "otel/omodel/span.go"]}
{"id": "C39", "title": "Compaction keeps exactly the service boundaries", "statement": "The compacted trace consists of the root, the spans whose service differs from their parent's and the database leaves (renamed), in the original order, each attached to its nearest kept ancestor.", "quantifier": "every span tree with distinct ids", "why_tests_cant": "All trees.", "anchors": ["otel/omodel/trace_compacter.go", "otel/omodel/trace_tree.go:Compact"]}
{"id": "C40", "title": "Consumed time is uncovered time", "statement": "If all children end within the span (and no interval is inverted), its consumed time is the number of nanoseconds of the span not covered by any child. In general the time by which the latest child outlives the span is subtracted from the uncovered time up to that child's end, modulo 2^64: the value is then too small or wraps around.", "quantifier": "every span with any children", "why_tests_cant": "All interval sets.", "anchors": ["otel/omodel/span.go:CalcConsumedTime"]}
{"id": "C41", "title": "Most time consuming service", "statement": "The reported service is one whose summed consumed time is maximal (empty if all are zero); only ties depend on iteration order.", "quantifier": "every tree, every iteration order", "why_tests_cant": "All trees and schedules.", "anchors": ["otel/omodel/compact_info_collect_visitor.go:GetMostTimeConsumedService"]}
{"id": "C42", "title": "Slow traces are the slowest", "statement": "PickSlowTraces(n) returns min(n, count) of the given traces in non-increasing duration, none of the others being slower.", "quantifier": "every trace list, every n", "why_tests_cant": "All lists.", "anchors": ["otel/jaeger/trace_picker.go:PickSlowTraces"]}
{"id": "C43", "title": "Same-service traces", "statement": "PickSameServiceAccessTraces returns exactly the traces in which some service occurs more often than the threshold, in input order; the reported count is the largest number of spans of one service.", "quantifier": "every trace list, threshold and iteration order", "why_tests_cant": "All trees.", "anchors": ["otel/jaeger/trace_picker.go:PickSameServiceAccessTraces", "otel/omodel/trace_tree.go:MaxSameServiceAccessCount"]}
{"id": "C44", "title": "Jaeger request windows and durations", "statement": "The requested duration filter denotes exactly the duration asked for. Every instant from the start to the last whole second of the end is within the window of a request all of whose traces are in the result; the fraction of the last second is in no window when the span is a multiple of half an hour, which is the default. The requests end and fail only with an error of the server.", "quantifier": "every int64 duration, every start/end, every server", "why_tests_cant": "All integers and servers.", "anchors": ["infra/jaeger/client.go", "otel/jaeger/trace_fetcher.go", "cmd/app/dig/jaeger.go"]}
{"id": "C45", "title": "Performance Insights loads are conserved", "statement": "The rows are the consecutive hours from the clock hour of the start to the last hour that begins no later than the end. A row has one entry per database of its samples, in order of first occurrence, with one entry per SQL, whose LoadSum is the sum in order, LoadMax the maximum and tokenized id that of the first sample. For samples in UTC and a start zone whole hours off UTC, every sample of the period is in exactly one row, and the sums of all rows add up to all samples. If the start's zone offset is not a whole number of hours all rows are empty.", "quantifier": "every sample list, every start, end and fixed-offset zone, every addition and weak order of loads", "why_tests_cant": "All sample lists and zones.", "anchors": ["infra/aws/pi_sql_load_avg.go:ConvertPiSQLLoadAvgsToVms", "lib/time.go:NormalizeTimeByHour"]}
{"id": "C46", "title": "Seven days of half-day windows", "statement": "For every database exactly the 14 half days tiling [start, start+7d) without gap or overlap are asked for, by SQL and by tokenized SQL, all answers are taken in order, an error of any call ends the command, and each kind has 169 hourly rows.", "quantifier": "every start, every list of databases, every service", "why_tests_cant": "All starts and answers.", "anchors": ["cmd/db/dig/performance_insights.go", "infra/aws/performance_insights.go", "infra/aws/rds.go"]}
{"id": "C47", "title": "Metrics conversion keeps every usable sample", "statement": "Converting resource metrics yields one entry per db.load.avg metric that has dimensions, with its SQL and id dimensions (empty if missing) and exactly its samples that have a time and a non-zero value, in order; it panics exactly if a metric has no key.", "quantifier": "every response", "why_tests_cant": "All responses.", "anchors": ["infra/aws/performance_insights.go:convertResourceMetricsToAvgs"]}
{"id": "C48", "title": "Hasura metadata queries are injection free", "statement": "A metadata query is built exactly when schema and tables are non-empty words; PostgreSQL reads it as the fixed template with one string literal for the schema and the comma separated literals of the tables in the two marked places and nothing else. Otherwise the schema or the first bad table is named in the error. Queries of equal text are for equal names; an empty table list gives the text IN ().", "quantifier": "every schema name and table list", "why_tests_cant": "Injection freedom is about all names.", "anchors": ["infra/hasura/column_info.go:buildColumnFetchQuery", "infra/hasura/index_info.go:buildIndexFetchQuery"]}
{"id": "C49", "title": "PostgreSQL connection string", "statement": "The driver reads from the connection string exactly the configured user, password, host, port and database, then the additional parameters, then sslmode=disable, if and only if no value has a quote or backslash. sslmode=disable is in force whatever the parameters say; other parameters override. False in general: a quote in the password changes other parameters, a backslash is lost, a request for TLS has no effect.", "quantifier": "every configuration and parameter text", "why_tests_cant": "All strings.", "anchors": ["infra/postgres/config.go:GetKVConnectionString", "infra/postgres/config.go:NewConfigFromEnv"]}
{"id": "C50", "title": "Examination output never overwrites the report", "statement": "For every output name: the name offered for the examination has the same directory and the same extension, its stem is the old one with _examine after it (the three parts exist and are unique), it differs from the output name, and two different output names give different offered names.", "quantifier": "every file name", "why_tests_cant": "File names are unbounded and have several shapes (no dot, leading dot, dots in directories).", "anchors": ["html/viewmodel/vm_examination_command_option.go:CreateOutputExaminationOption"]}
{"id": "C51", "title": "Copyable command survives the shell", "statement": "The command shown in the report, read by a POSIX shell, yields exactly the intended words: the sub command, --with-examine, one -i word per target, and every option with its exact value, whatever characters the value has. For the options that the program gives, the -i words parse back to the targets, the query and variables come back unchanged and -o names another file. With no target chosen the command is refused. Names that are not identifiers are not escaped: the general claim is refuted.", "quantifier": "every option value, list of targets and sub command", "why_tests_cant": "All strings with any mixture of quotes, dollars, backslashes and line ends.", "anchors": ["client/src/models/ExaminationCommandOption.ts:ToCommandString", "client/src/components/IndexSuggestion.svelte:buildCommandText", "cmd/db/suggest/mysql.go:createHTML"]}
{"id": "C52", "title": "Repeated calls are folded without loss", "statement": "The drawn tree of a trace stands for exactly the calls of the trace in their order (a repetition standing for its count of calls); at most four neighbouring drawn nodes stand for calls of one service that call nothing; a repetition stands for at least two calls and follows three drawn ones.", "quantifier": "every span tree", "why_tests_cant": "All trees and run lengths.", "anchors": ["client/src/models/OtelTraceSpan.ts:toTraceNode"]}
{"id": "C53", "title": "Sequence diagrams show the calls", "statement": "Reading the diagram text of a trace back gives exactly its tree of calls, activations are properly nested, different calls give different diagrams, and a single span is one message to itself, for names without line ends, arrows and colon-blank. For arbitrary names nesting is refuted.", "quantifier": "every span tree with drawable names", "why_tests_cant": "All trees.", "anchors": ["client/src/models/trace_diagram/TraceTree.ts:toMermaidDiagram", "client/src/models/trace_diagram/TraceNode.ts", "client/src/models/trace_diagram/TraceRepeatNode.ts"]}
{"id": "C54", "title": "Explain timeline numbering and times", "statement": "The chart draws one bar for every node of the explain tree, numbered 0..n-1 in pre-order and labelled with that number; a bar begins when the last of its children has ended, ends no earlier than that and no earlier than the node's data says, and is always visible.", "quantifier": "every forest of plan nodes, every sort", "why_tests_cant": "All trees.", "anchors": ["client/src/components/ExplainTree/ExplainTree.ts"]}
{"id": "C55", "title": "Load chart series are aligned", "statement": "The load chart has one series for each database and SQL whose load reaches the threshold in some time slot; each series has one point per slot, with the SQL's load, database, text and id in that slot, or zero when it is not drawn there; and the point is at the time of its slot.", "quantifier": "every load table, every choice of databases, every threshold", "why_tests_cant": "All tables; alignment depends on when each SQL first appears.", "anchors": ["client/src/pages/dig/performance_insights/util/chart/LoadPropChartSereies.ts", "client/src/pages/dig/performance_insights/DbLoadChart.ts", "client/src/pages/dig/performance_insights/DbTokenizedLoadChart.ts"]}
{"id": "C56", "title": "No useful index is not a failure", "statement": "A statement whose columns are all served by the primary key yields an empty suggestion list. False: with no candidate left the existing-index lookup is called with an empty table list, which the query builder rejects, so suggest fails.", "quantifier": "statements without candidates, any answers of the database", "why_tests_cant": "Holds for every answer of the database and every map order.", "anchors": ["database/dservice/existing_index_remover.go:26-40", "infra/mysql/db.go:76-80", "infra/postgres/db.go:67-71"]}
{"id": "C57", "title": "Final suggestions are useful and new", "statement": "Whatever the suggester returns after parsing: each suggested index is on a table of the statement, has distinct columns that the database reported for that table, at least one of them outside the primary key, and is not the same (up to letter case, in order) as an index the database reported for that table.", "quantifier": "every list of scopes, every answer of the database, every map order and sort", "why_tests_cant": "Depends on all catalogue answers and runtime orders.", "anchors": ["database/mysql/mservice/index_suggester.go:23-51", "database/mysql/mservice/parser/index.go:10-32"]}
{"id": "C58", "title": "MySQL: a scope holds exactly what the SELECT uses", "statement": "For an accepted SELECT there is exactly one scope; its tables are those of the FROM clause in order with their aliases and its fields are exactly the columns of select list, join conditions, WHERE, GROUP BY, HAVING, ORDER BY and LIMIT, WHERE and ON as conditions and all others as references. Columns of USING are not among them.", "quantifier": "every statement tree", "why_tests_cant": "All statements; missing one clause only shows for statements with it.", "anchors": ["database/mysql/mservice/parser/collect_stmt_scopes.go:Enter", "database/mysql/mservice/parser/collect_stmt_scopes.go:collectReferencingTables"]}
{"id": "C59", "title": "MySQL: unsupported statements are refused", "statement": "A statement in which any SELECT at any depth has a WINDOW clause, an unsupported table reference or an unsupported expression is refused; a statement without any such part and without WITH or VALUES is accepted. WITH is meant to be refused, but is accepted when no later expression of the statement is looked at.", "quantifier": "every statement tree", "why_tests_cant": "The error is delayed through mutable collector state over arbitrary trees.", "anchors": ["database/mysql/mservice/parser/collect_stmt_scopes.go:CollectStmtScopes"]}
{"id": "C60", "title": "MySQL: subqueries do not influence the suggestions", "statement": "Replacing the queries of subqueries and derived tables by other supported ones does not change the collected scope.", "quantifier": "every pair of statement trees differing inside subqueries", "why_tests_cant": "Relational property of two runs.", "anchors": ["database/mysql/mservice/parser/collect_stmt_scopes.go"]}
{"id": "C61", "title": "MySQL: every suggestion is justified by the statement", "statement": "Every index suggested for a statement is on a table the statement reads and has in its own FROM clause, and each of its columns is used by the statement outside subqueries, unqualified or qualified by that table's name.", "quantifier": "every statement, schema, index list, map order and sort", "why_tests_cant": "End to end over parsing results, schema answers and nondeterminism.", "anchors": ["database/mysql/mservice/index_suggester.go", "database/mysql/mservice/parser/index.go"]}
{"id": "C62", "title": "MySQL: suggesting crashes only on an empty text", "statement": "If the database calls themselves do not crash, suggesting indexes crashes iff the text parses to no statement at all.", "quantifier": "every parse result, every database answer", "why_tests_cant": "Absence of nil dereferences over all statements and answers.", "anchors": ["database/mysql/mservice/parse.go", "database/mysql/mservice/index_suggester.go"]}
{"id": "C63", "title": "MySQL: every used column has to be a base table column", "statement": "Suggesting succeeds only if every column used outside subqueries is a column of a base table of the FROM clause. Hence valid statements ordering by an output name or reading a derived table's column fail.", "quantifier": "every statement, every database answer, every map order", "why_tests_cant": "Concerns all statements and map orders.", "anchors": ["database/mysql/mservice/parser/collect_stmt_scopes.go", "database/dservice/dparser/build_table_fields.go"]}
{"id": "C64", "title": "PostgreSQL: the scope tree is exactly what the statement says", "statement": "For every supported statement the collected scope has the fields of all clauses in order, the tables of FROM, one scope per subquery and derived table recursively, and pairwise different names for them.", "quantifier": "every supported statement tree with distinct nodes", "why_tests_cant": "All nestings of subqueries, derived tables and joins.", "anchors": ["database/postgres/pservice/parser/collect_stmt_scopes.go"]}
{"id": "C65", "title": "PostgreSQL: unsupported statements are refused", "statement": "If scopes are returned, then no reachable node is of an unsupported kind, no reachable SELECT has an unsupported clause, FROM item or expression, and there is no WITH. False for WITH with a VALUES query only.", "quantifier": "every statement tree with distinct nodes", "why_tests_cant": "All positions of unsupported constructs.", "anchors": ["database/postgres/pservice/parser/collect_stmt_scopes.go:Enter", "database/postgres/pservice/ast/ast_walker.go"]}
{"id": "C66", "title": "PostgreSQL: table names are exactly the tables read", "statement": "The table names returned are without duplicates exactly the normalised tables read at reachable places and not hidden by WITH names; a statement is refused iff a reachable node is unsupported or a table of another schema or catalog; nothing listed is not read in SQL. The converse is false: a WITH query may hide the table it reads.", "quantifier": "every statement tree, every set order", "why_tests_cant": "All nestings of WITH scopes.", "anchors": ["database/postgres/pservice/parser/collect_table_names.go"]}
{"id": "C67", "title": "PostgreSQL: suggesting does not crash", "statement": "Suggesting indexes does not crash. False for an empty text, set operations, parentheses, half window frames, derived tables before the last FROM item and DISTINCT ON subqueries; true for supported statements with derived tables in the last FROM item only.", "quantifier": "every supported statement, every database answer, every map order", "why_tests_cant": "Absence of nil dereferences over all statements.", "anchors": ["database/postgres/pservice/index_suggester.go", "database/postgres/pservice/parse.go"]}
{"id": "C68", "title": "PostgreSQL: every suggestion is justified by statement and database", "statement": "Every index suggested for a supported statement is on a table the statement reads; its columns exist, are mentioned by name in the statement, are distinct, are not all primary key columns and do not form an existing index.", "quantifier": "every supported statement, schema, index list, map order and sort", "why_tests_cant": "End to end over statements, answers and nondeterminism.", "anchors": ["database/postgres/pservice/index_suggester.go", "database/postgres/pservice/parser/index.go"]}
{"id": "C69", "title": "PostgreSQL: scope tables and listed tables agree", "statement": "Every table of the scope of a supported statement is a derived table or is listed under the same name. False for quoted names with capitals: the list is normalised, the scope is not; true up to normalisation.", "quantifier": "every supported statement", "why_tests_cant": "All FROM clauses.", "anchors": ["database/postgres/pservice/parser/collect_table_names.go:getTableNames", "database/postgres/pservice/parser/collect_stmt_scopes.go:collectTables"]}
{"id": "C70", "title": "The trace page mirrors the trace", "statement": "The view model of a trace has the tree's shape, names and services, times rounded down to milliseconds and ids from which the bytes can be recovered; its count and service are the maximal ones of C43 and C41.", "quantifier": "every tree, every iteration order", "why_tests_cant": "All trees.", "anchors": ["otel/omodel/span.go:ToViewModel", "otel/omodel/trace_tree.go:ToCompactViewModel"]}
{"id": "C71", "title": "dig reports the slowest and the repetitive traces of all windows", "statement": "When dig succeeds, its slow traces are the (at most 100) slowest of all fetched traces and its same-service traces are exactly those with a service above the threshold; the time span is the 24 hours before now, or at most 24 hours from the given start, never beyond now.", "quantifier": "every server, time and option", "why_tests_cant": "All servers and traces.", "anchors": ["cmd/app/dig/jaeger.go:dig", "cmd/app/dig/jaeger.go:prepare"]}
{"id": "C72", "title": "Hasura metadata requests are read-only and rows are read exactly", "statement": "Metadata functions depend on the server only through read-only requests with the filled template, sent after the names are checked; columns and indexes are read one per row after the header; a row with too few cells crashes, an array that cannot be read is reported.", "quantifier": "every server, schema, table list and answer", "why_tests_cant": "All servers and answers.", "anchors": ["infra/hasura/client.go:GetTableColumns", "infra/hasura/client.go:GetIndexes", "infra/hasura/column_info.go:parseColumnFetchResult", "infra/hasura/index_info.go:parseIndexFetchResult"]}
{"id": "C73", "title": "Hasura: suggestions are justified and read-only", "statement": "Suggesting through Hasura uses read-only requests only; every suggestion for a supported statement is on a table it reads, its columns exist, are mentioned and distinct, not all in the primary key and no existing index. It does not crash if answers have enough cells; a table whose name is not a word is refused.", "quantifier": "every supported statement, server, map order and sort", "why_tests_cant": "End to end over statements, servers and nondeterminism.", "anchors": ["database/hasura/hservice/index_suggester.go", "database/hasura/hservice/parser/collect_table_schemas.go", "database/hasura/hservice/parser/index.go"]}
{"id": "C74", "title": "Configuration from the environment and MySQL data source name", "statement": "User and database are required, other settings optional. The driver reads the data source name back as exactly the configuration if and only if the user has no colon, protocol no bracket or at sign, address no at sign, database no slash or question mark and parameters no slash; the password may be anything. A data source name has one meaning.", "quantifier": "every environment and configuration", "why_tests_cant": "All strings.", "anchors": ["infra/mysql/config.go:ToDSN", "infra/mysql/config.go:NewConfigFromEnv", "infra/hasura/config.go:NewConfigFromEnv", "lib/env.go:GetEnv"]}
{"id": "C75", "title": "Offered index statements say what the target says", "statement": "The statement offered for a target consists of exactly the expected SQL tokens with the table and the columns in order, two different targets never share a statement, and the curl command offered for Hasura passes exactly the expected words with the statement in its data.", "quantifier": "every target of identifiers", "why_tests_cant": "All names and column lists.", "anchors": ["client/src/models/IndexTarget.ts:toAlterAddSQL", "client/src/models/PostgresIndexTarget.ts:toAlterAddSQL", "client/src/models/HasuraIndexTarget.ts:toExecutableText"]}
{"id": "C76", "title": "From trace to diagram", "statement": "For a compacted trace the report's diagram shows exactly the services called by its spans in order, under its id, and the shown duration is less than one millisecond off the duration of the root.", "quantifier": "every compacted trace with drawable names, all map orders", "why_tests_cant": "All traces.", "anchors": ["otel/omodel/trace_tree.go:ToCompactViewModel", "otel/omodel/span.go:ToViewModel", "client/src/models/OtelCompactedTrace.ts:toTraceTree"]}
{"id": "C77", "title": "Plan text and timeline agree", "statement": "The plan panel never fails; the text with number i in the plan text and the bar with number i belong to the same node, so hovering over a bar highlights its own text.", "quantifier": "every forest of plan nodes", "why_tests_cant": "Two different traversals have to agree on all trees.", "anchors": ["client/src/components/ExplainText.svelte", "client/src/components/ExplainTree/ExplainTree.ts"]}
{"id": "C78", "title": "The page shows the text of EXPLAIN", "statement": "The plan text on the page is the output of EXPLAIN line by line in its order, for PostgreSQL followed by the summary.", "quantifier": "every output the parser accepts", "why_tests_cant": "All outputs.", "anchors": ["client/src/components/ExplainText.svelte", "database/mysql/mmodel/explain_analyze_tree.go:ToViewModel", "database/postgres/pmodel/explain_analyze_tree.go:ToViewModel", "cmd/db/suggest/hasura/postgres.go:99"]}
{"id": "C79", "title": "The page's tree has the plan's numbers", "statement": "For every plan a database prints, the tree of view models has the plan's shape, and each node has the printed text, table, estimates and measurements.", "quantifier": "every printable plan", "why_tests_cant": "All plans.", "anchors": ["database/mysql/mmodel/explain_analyze_tree_node.go:ToViewModel", "database/postgres/pmodel/explain_analyze_tree_node.go:ToViewModel"]}
{"id": "C80", "title": "Timeline and suggestions use the same times", "statement": "For every MySQL node that ran, the length the timeline adds for it is the total time the Go code ranks tables with, the number of loops times the average.", "quantifier": "every node, every start time", "why_tests_cant": "Two implementations in two languages, all numbers.", "anchors": ["client/src/models/explain_data/MysqlAnalyzeData.ts:calculateEndTime", "database/mysql/mmodel/explain_analyze_result_line.go:EstimatedTotalTime"]}
{"id": "C81", "title": "The ranking shows the heaviest SQLs", "statement": "The ranking has one bar for each database and SQL, with the sum of its loads over all hours as a percentage, highest first; an SQL is left out only if the ranking is full of SQLs that are not lighter.", "quantifier": "every load table, every choice of databases, every size, every order of object keys and every sort", "why_tests_cant": "All tables and key orders.", "anchors": ["client/src/pages/dig/performance_insights/DbLoadRankingChart.ts:createDbLoadChartSeries", "client/src/pages/dig/performance_insights/DbTokenizedLoadRankingChart.ts"]}
{"id": "C82", "title": "A tokenized SQL shows its heaviest SQLs", "statement": "Choosing a tokenized SQL lists the heaviest of the fetched SQLs with its id, heaviest first, and fails exactly if none was fetched.", "quantifier": "every load table, every id and size", "why_tests_cant": "All tables; the failure needs an id that the other table lacks.", "anchors": ["client/src/pages/dig/performance_insights/util/chart/TokenizedLoad.ts:createRawLoads", "client/src/pages/dig/performance_insights/util/chart/TokenizedLoad.ts:pickRawLoads"]}
{"id": "C83", "title": "The databases of the page", "statement": "The page offers exactly the databases of the load table, each once and in order of name, and opens with the SQLs of the first one that reach half a per cent.", "quantifier": "every load table", "why_tests_cant": "All tables.", "anchors": ["client/src/pages/dig/performance_insights/util/Databases.ts", "client/src/pages/dig/performance_insights/HeavySqlTimeline.svelte"]}
{"id": "C84", "title": "The offered command for a heavy SQL is run as meant", "statement": "A shell runs the offered command with DB_DATABASE set to the chosen database and with exactly the chosen SQL as query.", "quantifier": "every database name and SQL", "why_tests_cant": "All texts; quoting errors need special characters.", "anchors": ["client/src/pages/dig/performance_insights/util/CommandText.ts:buildCommandText"]}
{"id": "C85", "title": "The data in the report is read back as written", "statement": "The JSON text in the report's script is read by the browser as exactly the data of the command, and no text in it can end the script element or start a comment in it.", "quantifier": "every JSON value with any strings and any depth", "why_tests_cant": "All strings, including markup, control characters and line separators.", "anchors": ["html/html_builder.go:CreateHtml", "html/build_option.go:createGrMap"]}
{"id": "C86", "title": "A report opens the page of its command with the command's data", "statement": "The page the browser opens for a report is that of the command that wrote it, and its objects hold the query, plan, summary, variables, index targets, options, examination, loads or traces of the command.", "quantifier": "every command and all its data", "why_tests_cant": "All plans, targets and texts; null against empty slices.", "anchors": ["html/build_option.go", "html/viewmodel", "client/src/stores/gr_param.ts", "client/src/models", "client/src/App.svelte", "client/src/Mermaid.svelte"]}
{"id": "C87", "title": "The cards of a suggestion page", "statement": "The page shows, in this order, GraphQL, SQL, plan, timeline, the suggested targets with a command for those still checked, and the examination sorted by time with index, statement and saving of each result; no suggestion, no card.", "quantifier": "all arguments of the three commands and all check boxes", "why_tests_cant": "All combinations of absent and present parts.", "anchors": ["client/src/pages/suggest", "client/src/components/IndexSuggestion.svelte", "client/src/components/ExaminationResultTable.svelte"]}
{"id": "C88", "title": "The page of an examination opens", "statement": "The report of a successful examination opens in the browser exactly if there was a target to examine.", "quantifier": "every database, every list of targets", "why_tests_cant": "The failing case needs an examination without targets.", "anchors": ["database/dservice/examiner.go:Run", "client/src/models/PostgresSuggestData.ts", "client/src/models/HasuraSuggestData.ts", "client/src/components/ExaminationResultTable.svelte"]}
{"id": "C89", "title": "The tables of traces", "statement": "A table of traces has exactly one row for each trace of the report with its id, duration, count and service, the longest trace first.", "quantifier": "every list of traces, every sort", "why_tests_cant": "All lists.", "anchors": ["client/src/pages/dig/jaeger/TracesTable.svelte"]}
{"id": "C90", "title": "The link of a trace", "statement": "The link of a trace is its page below the UI's URL.", "quantifier": "every UI URL and trace id", "why_tests_cant": "All URLs; base paths.", "anchors": ["client/src/pages/dig/jaeger/TracesTable.svelte"]}
{"id": "C91", "title": "Metadata requests carry names as arguments", "statement": "The text of a MySQL or PostgreSQL metadata request depends only on the number of tables; schema and table names travel as arguments, the schema compared with the first and the tables with the others; no tables is an error before any request.", "quantifier": "every schema, every list of tables", "why_tests_cant": "All names and all numbers of tables; the text has to be read by a parser.", "anchors": ["infra/mysql/db.go:GetTableColumns", "infra/mysql/db.go:GetIndexes", "infra/postgres/db.go:GetTableColumns", "infra/postgres/db.go:GetIndexes"]}
{"id": "C92", "title": "MySQL schemas are those of the catalog", "statement": "When the server answers from its catalog, each table gets exactly the columns the catalog has for it in the schema, in ordinal order, with the PRI ones as primary key; a table without columns is refused.", "quantifier": "every catalog, every server answering from it, every list of tables", "why_tests_cant": "All catalogs and all answers the query allows.", "anchors": ["infra/mysql/column_info.go", "infra/mysql/db.go:GetTableColumns", "database/mysql/mservice/parser/collect_table_schemas.go"]}
{"id": "C93", "title": "MySQL indexes are those of the catalog", "statement": "When reading succeeds, the existing indexes are one for each index the catalog has on the tables in the schema, with its columns in index order.", "quantifier": "every catalog, every server answering from it, every list of tables", "why_tests_cant": "All catalogs and all answers the query allows.", "anchors": ["infra/mysql/index_info.go", "infra/mysql/db.go:GetIndexes", "database/mysql/mservice/index_getter.go"]}
{"id": "C94", "title": "PostgreSQL schemas are those of the catalogs", "statement": "When the server answers from its catalogs, each table gets the columns of the ordinary table of that name in the schema, in order, and its primary key; anything that is no ordinary table is refused. The same for Hasura.", "quantifier": "every catalog, every server answering from it, every list of tables", "why_tests_cant": "All catalogs; joins that multiply rows.", "anchors": ["infra/postgres/column_info.go", "infra/postgres/db.go:GetTableColumns", "infra/hasura/column_info.go", "infra/hasura/client.go:GetTableColumns"]}
{"id": "C95", "title": "PostgreSQL indexes are those of the catalogs", "statement": "The existing indexes are one for each index of the catalogs on the tables in the schema, with the texts of its parts in order. The same for Hasura, through the text of arrays.", "quantifier": "every catalog, every server answering from it, every list of tables", "why_tests_cant": "All catalogs and all answers the query allows.", "anchors": ["infra/postgres/index_info.go", "infra/postgres/db.go:GetIndexes", "infra/hasura/index_info.go", "infra/hasura/client.go:GetIndexes"]}
{"id": "C96", "title": "MySQL suggestions against the catalog", "statement": "Each suggested index is on a table the statement reads, of columns the catalog has for the table in the schema, not all of them in the primary key, and no index of the catalog on that table has the same columns up to letter case.", "quantifier": "every statement, catalog, server answering from it, order of maps and sort", "why_tests_cant": "All statements and catalogs together.", "anchors": ["database/mysql/mservice/index_suggester.go", "database/mysql/mservice/parser/collect_table_schemas.go", "infra/mysql/db.go"]}
{"id": "C97", "title": "PostgreSQL and Hasura suggestions against the catalogs", "statement": "Each suggested index is on a table the statement reads, of columns the table of that name in the schema asked about (public for Hasura) has and the statement names, not all of them in a primary index, and no index of the catalogs on plain columns of that table has the same columns up to letter case.", "quantifier": "every supported statement, schema, catalog, server answering from it, order of maps and sort", "why_tests_cant": "All statements and catalogs together.", "anchors": ["database/postgres/pservice/index_suggester.go", "database/hasura/hservice/index_suggester.go", "infra/postgres/db.go", "infra/hasura/client.go"]}
{"id": "C98", "title": "DB_SEARCH_PATH chooses the tables", "statement": "The table whose columns and indexes are read for an unqualified name is the one the session means. False: DB_SEARCH_PATH is not part of the connection. True just when the path of the session (the one of DB_PARAM_TEXT or the server's default) finds the name in the schema DB_SEARCH_PATH names. A path that is not the name of one schema refuses every statement; a statement naming a schema other than public is refused whatever the path.", "quantifier": "every configuration, catalog, session path, statement and server answering from the catalog", "why_tests_cant": "All configurations and catalogs; the tests use the schema public only.", "anchors": ["infra/postgres/config.go", "cmd/db/suggest/postgres.go", "database/postgres/pservice/parser/index.go"]}
{"id": "C99", "title": "What the suggest commands send, in order", "statement": "Without a configuration the MySQL and PostgreSQL suggest commands send nothing. Otherwise they open one connection with the text built from the configuration, EXPLAIN the query, ask about columns and then about indexes of tables the statement reads (schema and names as arguments), if asked for run the query and then for each target create an index, run the query and drop the index, write the report last, and close the connection whatever happened. They stop at the first failure; an index that was created is dropped first.", "quantifier": "every server (any states, any answers), configuration, query, parser answer, option, order of maps, clock and random numbers", "why_tests_cant": "All answers a server may give at every step; the tests mock one path.", "anchors": ["cmd/db/suggest/mysql.go", "cmd/db/suggest/postgres.go", "infra/mysql/db.go", "infra/postgres/db.go"]}
{"id": "C100", "title": "Nothing is executed without the option", "statement": "Without the option to examine indexes no statement is executed besides EXPLAIN and at most two questions about the catalogs. With it only the query, and the creation and removal of indexes for the given or (safe) suggested targets, are executed. At most one report is written, after all statements, at the path given; a command that succeeds with a path has written it.", "quantifier": "every server, configuration, query, parser answer, option", "why_tests_cant": "A statement about everything that can be sent.", "anchors": ["cmd/db/suggest/mysql.go", "cmd/db/suggest/postgres.go", "database/dservice/examiner.go"]}
{"id": "C101", "title": "A refused query has done nothing", "statement": "A query the command refuses, because it cannot be read as a statement or is more than one, has not been run. False: EXPLAIN ANALYZE with the raw text is sent first, so on a server that runs all statements of a text the ones after the first are executed. Proved for both commands: whenever the query is not readable, exactly one thing has been sent, the query behind EXPLAIN ANALYZE.", "quantifier": "every server, configuration, query, parser answer", "why_tests_cant": "The tests never look at the server after a refusal.", "anchors": ["cmd/db/suggest/mysql.go", "cmd/db/suggest/postgres.go", "database/postgres/pservice/index_suggester.go", "infra/postgres/db.go"]}
{"id": "C102", "title": "From the MySQL server to the page", "statement": "If the MySQL command succeeds and writes a report, the report opens in the browser (unless an examination had no target) and shows the query, the lines of the plan the server gave, in order, suggestions that are new and useful in the catalog the server had after EXPLAIN, the command to examine them, and if asked for one time for each target tried.", "quantifier": "every server with a catalog in each state, statement, option, order of maps and sorts", "why_tests_cant": "Go code, database, generated report and client code together for all inputs.", "anchors": ["cmd/db/suggest/mysql.go", "database/mysql/mservice/explainer.go", "database/mysql/mservice/index_suggester.go", "html/html_builder.go", "client/src"]}
{"id": "C103", "title": "From the PostgreSQL server to the page", "statement": "As C102 for PostgreSQL: the page shows the query, the plan lines before the summary and the summary, suggestions that are new and useful in the catalogs, and if asked for one time for each target tried.", "quantifier": "every server with catalogs in each state, supported statement, option, order of maps and sorts", "why_tests_cant": "Go code, database, generated report and client code together for all inputs.", "anchors": ["cmd/db/suggest/postgres.go", "database/postgres/pservice/explainer.go", "database/postgres/pservice/index_suggester.go", "html/html_builder.go", "client/src"]}
{"id": "C104", "title": "What the Hasura command sends", "statement": "A run of the Hasura suggest command is one of: no request and an error about variables or configuration; the explain request; the explain request and one or two read-only SQL questions about columns and indexes of word tables of the explained SQL; the same followed by the examination (query, then for each target CREATE INDEX, query, DROP INDEX, broken off at an error) and at the end one write of the report. SQL that is not read-only is sent only by an examination and is exactly a CREATE or DROP INDEX of a target; a successful examination changes the database twice and runs the query once for each target, and once before; with an output path success means that the report was written.", "quantifier": "every server with any state, answer, statement, option, order of maps and sorts", "why_tests_cant": "The tests run the command against one server; the claim is about all answers and errors at every step.", "anchors": ["cmd/db/suggest/hasura/postgres.go", "infra/hasura/client.go", "database/hasura/hservice/index_examiner.go", "database/dservice/examiner.go"]}
{"id": "C105", "title": "From Hasura to the page", "statement": "If the Hasura command succeeds and writes a report, and Hasura answers SQL from the catalogs of its database, the report opens in the browser (unless an examination had no target) and shows the query with its variables, the SQL of the explanation, every node of its plan but the last, suggestions that are new and useful in the catalogs at that time, the command to examine them, and if asked for one time for each target tried.", "quantifier": "every server with catalogs in each state, supported statement, option, order of maps and sorts", "why_tests_cant": "Go code, Hasura, database, generated report and client code together for all inputs.", "anchors": ["cmd/db/suggest/hasura/postgres.go", "database/hasura/hservice/index_suggester.go", "html/html_builder.go", "client/src"]}
{"id": "C106", "title": "Only GraphQL queries that ran are timed", "statement": "The examination takes the time of the query only if Hasura could run it. (False: any answer with status 200 counts, also a list of errors; all other answers are errors that show status and text.)", "quantifier": "every server, state and query", "why_tests_cant": "Hasura reports errors of queries with status 200; a test needs a query that fails only when it is run.", "anchors": ["infra/hasura/client.go:35-47", "database/hasura/hservice/index_examiner.go:25-34"]}
{"id": "C107", "title": "GraphQL variables are sent as given", "statement": "The variables of every request are the value of the --json-variables text, with of several members of a name the last and with numbers as float64; texts that are no JSON, are neither an object nor null, or have a number out of range are refused without a crash. If float64 keeps every number, the value is the same; but 9007199254740993 is always sent as another number.", "quantifier": "every text, JSON reader and float64 conversion", "why_tests_cant": "Nested values of any size; precision is lost only for large numbers.", "anchors": ["cmd/db/suggest/hasura/postgres.go:134-141", "infra/hasura/query.go", "infra/hasura/client.go"]}
{"id": "C108", "title": "One GraphQL field only", "statement": "If Hasura explains the query by any number of SQLs but one, the command fails after the explain request with a message telling the number; a null explanation crashes; an answer with any status but 200 is an error that shows the status and the text.", "quantifier": "every number of explanations, status, text and state", "why_tests_cant": "Unbounded number of explanations and all statuses.", "anchors": ["cmd/db/suggest/hasura/postgres.go:84-97", "infra/hasura/client.go:119-147"]}
{"id": "C109", "title": "Success means that everything sent succeeded", "statement": "The acts listed for a run of a suggest command (connection, SELECTs, statements, requests, the report, the closing) are exactly what changes the state of the server and file system, in order; and if the command succeeds, each of them succeeded: no error of any statement, request or write is lost.", "quantifier": "every server with any state and answers, statement, option, order of maps and sorts", "why_tests_cant": "An error may occur at any of unboundedly many steps.", "anchors": ["cmd/db/suggest/mysql.go", "cmd/db/suggest/postgres.go", "cmd/db/suggest/hasura/postgres.go", "database/dservice/examiner.go", "infra/mysql/db.go", "infra/postgres/db.go", "infra/hasura/client.go"]}
{"id": "C110", "title": "What the Jaeger dig command asks", "statement": "With a start that cannot be read or without JAEGER_UI_URL or JAEGER_GRPC_ADDRESS nothing is sent. Otherwise the command dials the address; if that works it asks for the service's traces of each half hour from the start (a day ago by default) to a day later or now, in order, with the limit and least duration given, until the first answer that is an error or cannot be read, which ends it; then it hangs up, always. Only after all answers the report is written, if a name is given. Every act and answer listed is what the services saw and said, in order.", "quantifier": "every service with any state and answers, flags with a count in 32 bits, environment, time, order of maps and sorts", "why_tests_cant": "The answers may fail at any of many questions; any state and order.", "anchors": ["cmd/app/dig/jaeger.go:61-164", "infra/jaeger/client.go:16-33", "otel/jaeger/trace_fetcher.go:25-43"]}
{"id": "C111", "title": "The Jaeger page shows the trees of what was received", "statement": "The report of the Jaeger dig command opens; its first table has a row for each of the 100 longest trees of the traces received, compacted, and its second for each tree with a service accessed more often than the threshold, both longest first; a row has the id in hexadecimal, the milliseconds, the greatest number of accesses and the service with most time, a link to the trace below the UI and a diagram with exactly the calls of the tree (for names that can be drawn).", "quantifier": "all answers of the service, flags, orders, number formats read back", "why_tests_cant": "Forests of unbounded size through every stage from the wire to the page.", "anchors": ["cmd/app/dig/jaeger.go:106-164", "otel/jaeger/trace_fetcher.go", "client/src/pages/dig/jaeger/DigJaegerPage.svelte", "client/src/pages/dig/jaeger/TracesTable.svelte", "client/src/pages/dig/jaeger/TraceDiagram.svelte"]}
{"id": "C112", "title": "Traces of the service that took long are found", "statement": "If the server answers each question with the traces it keeps that fit, then every trace with a span of the service that begins in the time dug and is not shorter than given is received and has rows (or there are 100 longer ones), and nothing is received that the server does not keep; a trace wanted in two half hours is received twice. False: that the slow table holds only traces longer than the threshold, each once; that the count given is the count asked for.", "quantifier": "every store of traces, times, flags", "why_tests_cant": "All stores and times; the borders of 48 half hours.", "anchors": ["cmd/app/dig/jaeger.go:61-139", "otel/jaeger/trace_fetcher.go:25-59", "client/src/pages/dig/jaeger/DigJaegerPage.svelte:14-38"]}
{"id": "C113", "title": "What the Performance Insights dig command asks", "statement": "The command asks for the MySQL instances, then reads the start, then asks for each database and each of the 14 half days of the week first for the loads by SQL and then by tokenized SQL, until the first answer that is an error or has a metric without key, which ends it with that error or a crash; only after all answers the report is written, always. Every act and answer listed is what the services saw and said, in order.", "quantifier": "every service with any state and answers, start, output, order of loads", "why_tests_cant": "Any number of databases; the failure may be at any of the questions.", "anchors": ["cmd/db/dig/performance_insights.go:34-98", "infra/aws/performance_insights.go:31-112", "infra/aws/rds.go:27-46"]}
{"id": "C114", "title": "Every load answered is shown", "statement": "If the Performance Insights dig command succeeds the report is written, opens, and shows every load answered for its half day in the row of its hour, at its database and SQL, with a maximum not below it (for a start in a zone of whole hours and loads in UTC). False: that all instances are dug (those beyond the first 100 are not) and that an empty output is refused before fetching.", "quantifier": "all answers of the service, any number of databases and loads", "why_tests_cant": "Unbounded answers; paging shows only with more than 100 instances.", "anchors": ["cmd/db/dig/performance_insights.go:46-98", "infra/aws/pi_sql_load_avg.go:24-81", "infra/aws/rds.go:27-46"]}
{"id": "C115", "title": "What the Performance Insights page names after any clicks", "statement": "After any clicks, checks and choices in each of the four charts, every bar shown is a load of a checked database and (timelines) every such load of half a per cent or more has its bar; a bar selected in the timelines or the tokenized charts belongs to a checked database; the command shown has dots or names a database and an SQL that loaded it, in the tokenized charts one of the ten heaviest plain SQLs with the id of the selected bar; a click breaks the page exactly if no plain SQL has the id of the bar; a checkbox changes its own database only. False: that the command of the plain ranking, or of a tokenized chart, names a checked database.", "quantifier": "every table of loads, every finite sequence of events, every order of keys and every sort", "why_tests_cant": "Sequences of events of any length over any data; the selection left behind shows only after certain orders of clicks and checks.", "anchors": ["client/src/pages/dig/performance_insights/HeavySqlTimeline.svelte:20-45", "client/src/pages/dig/performance_insights/HeaviestSqlRanking.svelte:20-42", "client/src/pages/dig/performance_insights/HeavyTokenizedSqlTimeline.svelte:24-110", "client/src/pages/dig/performance_insights/HeaviestTokenizedSqlRanking.svelte:23-110", "client/src/lib/GrChart.ts:75-87"]}
{"id": "C116", "title": "The charts of the Performance Insights page are apart", "statement": "Whatever happens on the page, each chart of the open tab is as if only its own events since the tab was opened had happened; opening the other tab forgets every selection, opening the same one changes nothing, and events at one chart leave the command of the other.", "quantifier": "every finite sequence of events on the page, all data", "why_tests_cant": "Interleavings of any length.", "anchors": ["client/src/pages/dig/performance_insights/DigPerformanceInsightsPage.svelte:9-53"]}
{"id": "C117", "title": "The path logged is that of the report", "statement": "For a relative output, the path that is logged at the end names, from any directory, the file that the output names in the working directory (no links). For an absolute output without two dots it names the file only if the command runs in the root directory (finding).", "quantifier": "all working directories and outputs", "why_tests_cant": "All texts with any dots and slashes.", "anchors": ["cmd/util/log.go:18-23"]}
{"id": "C118", "title": "Hasura's end points are below the configured URL", "statement": "Each request's URL has the configured origin and query, and the server reads from it a path that names the end point below the directory that the configured URL names, whatever dots, slashes and escapes it has. The curl command offered on the page posts to the same URL if the configured URL is an origin and a path of plain names without slash at the end. False: that it always does (a slash at the end, an escaped slash).", "quantifier": "every parsed URL", "why_tests_cant": "All base paths with any dots, slashes and escapes.", "anchors": ["infra/hasura/client.go:14-18", "infra/hasura/client.go:149-153", "client/src/models/HasuraIndexTarget.ts:3-20"]}
{"id": "C119", "title": "Pointing at a load shows that load", "statement": "Pointing at a point of a timeline shows the time, database, percentage and SQL of that row's load; where the SQL has no load in the row the tooltip fails with a TypeError. Pointing at a bar of a ranking always shows its database, SQL and summed percentage. If database and SQL contain no markup, the browser shows exactly these texts in the tooltip's elements. False: that every SQL is shown (what follows '<' and a letter is swallowed as a tag); any tag in an SQL becomes an element of the page.", "quantifier": "every table of loads with distinct rows, all databases checked, every threshold, every point and bar, every SQL", "why_tests_cant": "All SQL texts and tables.", "anchors": ["client/src/pages/dig/performance_insights/util/LoadTooltip.ts:8-49", "client/src/lib/GrChart.ts:56-65"]}
{"id": "C120", "title": "Pointing at a node of a plan shows that node", "statement": "For a node whose text and table have no markup the browser shows the trimmed text, or its first 50 characters and dots, the table or a dash, and every number known of the node, at its label. MySQL leaves out an initial cost of zero and says per loop exactly if there is more than one; PostgreSQL shows the times exactly if the first row's is not zero. False: that names in angle brackets (MySQL's <temporary>) are shown, and that a known time is always shown for PostgreSQL.", "quantifier": "every node", "why_tests_cant": "All texts, with any white space, and all combinations of known and missing numbers.", "anchors": ["client/src/pages/suggest/mysql/ExplainAnalyzeChart.svelte:32-74", "client/src/pages/suggest/postgres/ExplainAnalyzeChart.svelte:33-71", "client/src/pages/suggest/hasura/ExplainChart.svelte:33-61"]}
{"id": "C121", "title": "The bars of the plan timeline carry the titles of the printed nodes", "statement": "For every plan MySQL or PostgreSQL prints, the i-th bar of the timeline is labelled with the title of the i-th node in pre-order: for MySQL what stands before the first colon of the node's description, else up to and with the first word 'join', else what stands before the first word 'on', else the first word; for PostgreSQL the shortest non-empty beginning of the description followed by white space and the word 'on' or a parenthesis. Its tooltip is made from that node and entering it highlights that node's text; a point that does not exist throws; the chart is 30 pixels high for each node plus 130. A title is unique. A value compared with may become the title: it is cut at a colon inside a literal.", "quantifier": "all forests of printable nodes with non-blank descriptions, all sorts, all indices", "why_tests_cant": "the title is cut out of the line by a backtracking regular expression with greedy and lazy groups; that the cost and time texts never leak into it holds for all descriptions and numbers", "anchors": ["database/mysql/mmodel/explain_analyze_result_line.go:153-183", "database/postgres/pmodel/explain_analyze_result_node.go:151-161", "client/src/components/ExplainTree/ExplainTreeChart.ts:91-126", "client/src/lib/GrChart.ts:56-65"]}
{"id": "C122", "title": "A failed command tells what failed and does nothing but clean up", "statement": "Take the first act of a suggest command that the database server, the Hasura server or the file system fails. The command then ends with an error made of fixed words for that kind of act (connecting, the EXPLAIN, the question about columns, the one about indexes, the statement with its text, a drop, a request, the file), the statement or status concerned, and the server's own message; after it only the drop of the index being tried, if the examined query failed, and the closing of the connection follow, and after a failed connection nothing. Only the first failure is told: if the drop fails too, its message is lost.", "quantifier": "all servers, file systems, environments, flags, queries and points of failure", "why_tests_cant": "the failure can happen at any of unboundedly many acts of a run with any message; tests inject a few failures", "anchors": ["cmd/db/suggest/mysql.go:46-111", "cmd/db/suggest/postgres.go:46-111", "cmd/db/suggest/hasura/postgres.go:63-157", "database/dservice/examiner.go:30-103", "infra/mysql/db.go:19-89", "infra/postgres/db.go:20-81", "infra/hasura/client.go:46-147"]}
{"id": "C123", "title": "A MySQL statement is refused with words that are true of it", "statement": "Whenever the collectors refuse a parsed MySQL statement, there is at least one message, and every message is one of a fixed list whose words hold of the statement: it is not a SELECT or is a UNION; a SELECT inside it has WINDOW, VALUES or WITH; an expression of one of its clauses contains DEFAULT, VALUES, MAXVALUE, a table definition or an unknown kind; a FROM clause reads a table of the named database, a UNION or something not a table. The collector of table names gives for a joined or unknown source a message with two empty names.", "quantifier": "all syntax trees, all case foldings", "why_tests_cant": "trees nest without bound and the pending error of one clause is told by a later one; tests compare the message of a handful of statements", "anchors": ["database/mysql/mservice/parser/collect_stmt_scopes.go:20-420", "database/mysql/mservice/parser/collect_table_names.go:13-90", "database/mysql/mservice/parser/errors.go:1-25", "lib/errors.go:1-30"]}
{"id": "C124", "title": "A PostgreSQL statement is refused with words that are true of it", "statement": "Whenever the collectors refuse a parsed PostgreSQL statement, there is at least one message and every message is one of a fixed list whose words hold of a node at a place the message speaks of: root kinds, WINDOW, WITH, DEFAULT/MINVALUE/MAXVALUE, names of another schema or catalog in expressions, tuples and FROM, kinds of subqueries, NATURAL and unknown joins, nested aliases, unknown sources. If a node of an unsupported kind is reached, every message is 'unsupported node found'.", "quantifier": "all syntax trees, normalisations, target schemas", "why_tests_cant": "trees nest without bound; the walk and the collection see different parts of the tree; tests compare the message of a handful of statements", "anchors": ["database/postgres/pservice/parser/collect_stmt_scopes.go:20-520", "database/postgres/pservice/parser/collect_table_names.go:15-110", "lib/errors.go:1-30"]}
{"id": "C125", "title": "Every error of a suggestion is accounted for", "statement": "If the suggester of MySQL, PostgreSQL or Hasura returns an error for a parsed text, its message is exactly one of: more than one statement (not MySQL); ': ' and a complaint about the statement (C123, C124); the words for an empty IN list if the statement reads no table or needs no index; the server's own message; ': unknown table found. perhaps using VIEW? not supporting: t' for a table t of the statement without a column row; ': no column found for c' or ': no table found: t' where c or t is a name written in, or a table read by, one of the collected scopes. Which of them it is follows the order of the steps.", "quantifier": "all statements, servers, orders of maps, sorts", "why_tests_cant": "the set of messages is a statement about all inputs; tests fix one message per case", "anchors": ["database/mysql/mservice/index_suggester.go:1-80", "database/postgres/pservice/index_suggester.go:1-90", "database/hasura/hservice/index_suggester.go:1-90", "database/dservice/dparser/build_table_fields.go:1-330", "lib/errors.go:1-30"]}
{"id": "C126", "title": "Every step of an examination is announced", "statement": "In every run of a suggest command, whatever the server answers and wherever it fails, the lines always shown are 'Start examination...' if there is an examination, then one line for each statement of the examination in order, naming the index that is created or dropped, then where the report is; each such statement stands right behind its own line. The line about the report comes only if the run succeeded with an output, and names the report. Without its lines the run is the one without logging.", "quantifier": "every statement, option, environment, server and point of failure", "why_tests_cant": "All servers and failure points; what was announced when a run is killed between two statements.", "anchors": ["database/dservice/examiner.go:Run", "database/dservice/examiner.go:examine", "cmd/util/log.go:LogResultOutputPath", "cmd/db/suggest/mysql.go:suggest", "cmd/db/suggest/postgres.go:suggest", "cmd/db/suggest/hasura/postgres.go:suggest"]}
{"id": "C127", "title": "The log says what the report says", "statement": "If a report is written, the log has the suggestions of that report, numbered from 0 with table and columns, in front of the examination, or that there is none; and if the report has an examination, behind it the original time and every result of the report once under its table, fastest first, with its time, columns and the reduction in percent rounded to one place. If the original took 0 ms the percentage is NaN or -Inf (finding). All these lines are shown only with --verbose.", "quantifier": "every run of the three commands, all orders of maps", "why_tests_cant": "All results and orders.", "anchors": ["cmd/util/log.go:LogNewIndexTargets", "database/dservice/examiner.go:Run", "database/dmodel/index_target.go:CombinationString", "database/dmodel/examination_result.go"]}
{"id": "C128", "title": "Screen and status of a whole process", "statement": "Without --verbose the screen has, in this order, the note about the mock if it is used, the announcements of C126, the line about the report and, if and only if the run failed, the text of the error as the last line. The status is 0 if the run succeeded and 1 if it failed; a panic ends it without such a line.", "quantifier": "every run of the three commands", "why_tests_cant": "All runs.", "anchors": ["cmd/root.go:Execute", "cmd/util/log.go:LogError", "main.go:main"]}
{"id": "C129", "title": "Secrets and the log", "statement": "Two runs whose environments differ only in DB_PASSWORD, with a server that treats both connections alike, log the same lines, do the same, write the same report and end the same. The HTTP transport passes each request on once and unchanged and returns the answer unchanged; its two lines are for --verbose only and do not depend on headers and body, so not on the Hasura admin secret. But the URL is shown whole, so a password in HASURA_URL is logged with --verbose (finding).", "quantifier": "all environments, servers, requests, secrets", "why_tests_cant": "Non-interference: pairs of runs.", "anchors": ["lib/http_transport.go:RoundTrip", "infra/hasura/client.go:post", "infra/mysql/config.go:ToDSN", "infra/postgres/config.go:GetKVConnectionString"]}
{"id": "C130", "title": "The log of the dig commands tells what they do", "statement": "Erasing the lines from the log leaves exactly the run of the program. Jaeger: once connected the span of time and the least duration are told; a line with the start of a window of half an hour stands right before the request for that window, and there are no such lines beyond; with --verbose the slow traces of the report are listed right before it is written, in its order, with the trace id, name and service of the root shown there. Performance Insights: each half day is told right before the request by statement, which is followed by the request for the same database and half day by normalized statement. The place of the report is told last, just when it was written.", "quantifier": "all flags, environments, clocks, answers of servers, orders of maps and sorts", "why_tests_cant": "All traces of exchanges with servers, including those that fail on the way.", "anchors": ["cmd/app/dig/jaeger.go:dig", "otel/jaeger/trace_fetcher.go:FetchCompactedTraces", "cmd/db/dig/performance_insights.go:dig", "cmd/util/log.go:LogResultOutputPath"]}
{"id": "C131", "title": "No cut off answer of Jaeger is taken for a whole one", "statement": "FindTraces gives traces just when the stream was opened and ended with EOF, and then exactly the chunks before the end in order of arrival; a stream broken at any place is an error with the cause behind the fixed words, without any of the traces.", "quantifier": "all sequences of answers of Recv", "why_tests_cant": "Streams of any length broken at any place.", "anchors": ["infra/jaeger/client.go:FindTraces"]}
{"id": "C132", "title": "A command killed at any moment", "statement": "Wherever a suggest command is stopped (killed, power lost), at most one index of its examination is left with its creation sent and its removal not, and it is the one named in the last line on the screen that names an index.", "quantifier": "all prefixes of all runs of the three commands, against any server", "why_tests_cant": "Every moment of every run.", "anchors": ["database/dservice/examiner.go:Run", "database/dservice/examiner.go:examine"]}
{"id": "C133", "title": "The file of the report", "statement": "When CreateHtml succeeds, the file at the path holds the whole report: a browser that reads its raw text elements finds exactly the data script, the style and the script of the bundle, and the data opens the page of the command with the command's data. No other file changes. When a bundle is missing or the file cannot be made, the earlier file is untouched and the error says which; when writing fails, the file holds a beginning of the report and the error says so (the earlier report is lost: finding). With bundles, permission and room it succeeds.", "quantifier": "all data, bundles, paths, disks and failures of the host", "why_tests_cant": "Every failure of the file system at every character, every text in the data and in the bundles.", "anchors": ["html/html_builder.go:CreateHtml"]}
{"id": "C134", "title": "What a command leaves on the disk", "statement": "Behind each of the five commands at most the file at --output has changed. After success it is the whole report of the command; after any failure it is what it was before, or a beginning of a report and the command's error says that writing failed. Without --output nothing changes (except that performance-insights tries an empty path). The state of the server is the one to which the recorded acts lead.", "quantifier": "all servers, services, hosts, disks and options", "why_tests_cant": "Every failure of every server and disk.", "anchors": ["html/html_builder.go:CreateHtml", "cmd/db/suggest/mysql.go:suggest", "cmd/db/suggest/postgres.go:suggest", "cmd/db/suggest/hasura/postgres.go:suggest", "cmd/app/dig/jaeger.go:dig", "cmd/db/dig/performance_insights.go:dig"]}
{"id": "C135", "title": "A command line is understood as the table of options says", "statement": "The words behind the name of a command run that command if and only if they read, by the grammar of options (long and short, joined and separate, grouped switches, --), as settings of the options in the table of that command, no help is asked for and everything required is given; the command then runs with exactly these settings: the last text given to an option, all texts of --index in turn, the documented defaults otherwise. However the words are arranged, no command runs without what it requires. Words that are no options are ignored (finding: a query without quotes is cut, --with-examine false examines).", "quantifier": "all command lines, all values of the options", "why_tests_cant": "There are infinitely many command lines; the tests call the runners with their fields set and never parse one.", "anchors": ["cmd/root.go:init", "cmd/db.go:init", "cmd/app.go:init", "cmd/db/suggest/mysql.go:init", "cmd/db/suggest/postgres.go:init", "cmd/db/suggest/hasura/postgres.go:init", "cmd/app/dig/jaeger.go:init", "cmd/db/dig/performance_insights.go:init"]}
{"id": "C136", "title": "The commands that reports offer are understood", "statement": "The command that a suggest report offers, typed into a shell, runs the same command of the program with examination switched on, index texts that give back exactly the chosen targets, the same query and variables and another output file, whatever the texts are. The command that the Performance Insights page offers names no database (gr db suggest -o ... -q ...) and is refused for every SQL (finding).", "quantifier": "all targets of word characters, all queries, variables and output paths, all shell environments", "why_tests_cant": "Texts that look like options, quotes and dashes in every combination; no test joins the page, the shell and the parser of options.", "anchors": ["client/src/components/IndexSuggestion.svelte:buildCommandText", "client/src/pages/dig/performance_insights/util/CommandText.ts:buildCommandText", "cmd/db/suggest.go:SuggestCmd"]}
{"id": "C137", "title": "From the report of one run to the examination of the next", "statement": "If a suggest command (MySQL, PostgreSQL or Hasura) is started from a command line without --with-examine and succeeds, its report, opened in a browser, shows the suggestions and a command for those left checked. This command typed into a shell starts a run that executes nothing but the same query (with the same variables) and the statements that create and drop the chosen indexes, however it ends, writes no file but one other than the first report, and, if it succeeds, examines each chosen index exactly once in order: created, the query timed, dropped.", "quantifier": "all command lines, databases and their answers, queries, choices of suggestions, shell environments and later states of the database", "why_tests_cant": "No test joins two runs of the program with the page and the shell between them; the texts of one are the inputs of the other.", "anchors": ["cmd/db/suggest/mysql.go:run", "cmd/db/suggest/postgres.go:run", "cmd/db/suggest/hasura/postgres.go:run", "client/src/components/IndexSuggestion.svelte:buildCommandText", "cmd/root.go:Execute"]}
{"id": "C138", "title": "The program does no more than its command line asks for", "statement": "Whatever words gr is started with and however it ends: nothing is sent that may change a database (a statement executed, a GraphQL query run, SQL not marked read-only) unless a word of the line spells out --with-examine; every statement executed on MySQL or PostgreSQL is text of the line itself or one of the program's own CREATE INDEX / DROP INDEX statements; at most one file is written, and its path is text of the line.", "quantifier": "all command lines, environments, databases, Hasura, Jaeger and AWS servers and their answers", "why_tests_cant": "The command line is an arbitrary list of words; cobra's parsing, six commands and any answers of the servers lie between it and what is sent.", "anchors": ["main.go:main", "cmd/root.go:Execute", "cmd/db/suggest/mysql.go:run", "cmd/db/suggest/postgres.go:run", "cmd/db/suggest/hasura/postgres.go:run", "cmd/db/dig/performance_insights.go:run", "cmd/app/dig/jaeger.go:run"]}
{"id": "C139", "title": "A command line that is not understood does nothing", "statement": "If the words after a command cannot be read as its options, or a required option is missing, gr fails without a request, a statement or a file; if they can be read and ask for help, it succeeds without any of these.", "quantifier": "all commands and lists of words after them, environments and servers", "why_tests_cant": "The words are unbounded lists of arbitrary texts.", "anchors": ["main.go:main", "cmd/root.go:Execute", "cmd/db.go:init", "cmd/app/dig/jaeger.go:init"]}
{"id": "C140", "title": "Every command does what the options of its line say", "statement": "If the words behind a command read as options, everything required is given and help is not asked for, then the run is the conversation of that command for the last query, output, service, start, counts given, for all indexes given in turn, with the defaults that the help text promises for what is not given, examining exactly if the last --with-examine says yes. version, help and completion send and write nothing and succeed.", "quantifier": "all commands and words behind them, environments, servers and their answers", "why_tests_cant": "Unbounded lists of words and answers; options may be repeated, joined and ordered in any way.", "anchors": ["cmd/root.go:Execute", "cmd/db/suggest/mysql.go:init", "cmd/db/suggest/mysql.go:run", "cmd/db/suggest/postgres.go:run", "cmd/db/suggest/hasura/postgres.go:run", "cmd/db/dig/performance_insights.go:run", "cmd/app/dig/jaeger.go:run"]}
{"id": "C141", "title": "Names that every JavaScript object has", "statement": "The charts of Performance Insights keep their series and entries in plain objects. If no checked database has a name inherited from Object.prototype, a timeline is the one drawn from the table, whatever was drawn before, unless an SQL to be drawn is such a name: then the page throws. A ranking is exactly the ranking of the table without the databases and SQLs with such names, whatever order Object.keys gives. The page throws on opening exactly if a tokenized id fetched is such a name. A database called constructor is in no ranking, and its timeline disappears when drawn a second time.", "quantifier": "all tables, checked databases, thresholds, earlier charts and orders of members", "why_tests_cant": "Unbounded tables and sequences of redrawings; the names are rare and the state that outlives a chart is hidden.", "anchors": ["client/src/pages/dig/performance_insights/util/chart/LoadPropChartSereies.ts", "client/src/pages/dig/performance_insights/util/chart/TokenizedLoad.ts", "client/src/pages/dig/performance_insights/DbLoadRankingChart.ts", "client/src/pages/dig/performance_insights/DbTokenizedLoadRankingChart.ts"]}
{"id": "C142", "title": "The order of members and of equal loads", "statement": "Object.keys lists every member once, array indexes (the decimal text of a number below 2^32-1) first and by number, the others as they were created. So SQLs with the same load are listed in a ranking by database and then by SQL, where names that are array indexes come first by number and the others as they first appear in the table. The SQLs shown for a tokenized SQL with the same load are the first of them in the table, in its order.", "quantifier": "all tables, checked databases, numbers of entries, earlier charts and stable sorts", "why_tests_cant": "Unbounded tables; which of the equal entries are cut off depends on all that came before.", "anchors": ["client/src/pages/dig/performance_insights/DbLoadRankingChart.ts", "client/src/pages/dig/performance_insights/DbTokenizedLoadRankingChart.ts", "client/src/pages/dig/performance_insights/util/chart/TokenizedLoad.ts"]}
{"id": "C143", "title": "Texts as code points and as bytes", "statement": "Every text of Unicode characters has exactly one sequence of bytes, which Go writes and reads back. On these bytes equality, order, length, joining, cutting at an ASCII character and searching at the start, at the end or inside give what they give on the code points.", "quantifier": "all texts, separators and searched texts", "why_tests_cant": "Unbounded texts over all of Unicode; a mismatch needs an inner byte that looks like a start.", "anchors": ["database/dmodel/index_target.go", "lib/sort.go", "lib/join.go", "html/html_builder.go"]}
{"id": "C144", "title": "A report of any bytes", "statement": "Any bytes are read as one text, which they are exactly if they are UTF-8; every byte that starts no character is read as U+FFFD. Whatever bytes the strings of the data have, the script of the report is UTF-8, has no < > or &, and gives the page the data with each string read so. If the strings are UTF-8 the bytes are those of the script of C85 and the page has exactly the texts; otherwise different data can give the same report (an ISO 8859-1 query), so the report does not always tell the data.", "quantifier": "all data, all byte strings, every writer and reader of numbers that agree", "why_tests_cant": "Unbounded data; bad bytes can be anywhere, also in names, overlong, cut off or surrogates.", "anchors": ["html/html_builder.go:25-41"]}
{"id": "C145", "title": "Times and percentages computed with float64", "statement": "Rounding to binary64, half to even, gives a nearest number of the format. With any such rounding the total time of a plan line is within a factor 1 +- 2^-51 of the exact one and two times differing by more than a factor 1 + 2^-49 keep their order; the saving in the log has the one decimal nearest to the exact percentage, and the two decimals the page shows are nearest too, for all times that together are below 10^12 ms (10^11 ms). Exactly between two decimals the last digit is the one the rounding gives.", "quantifier": "all readable lines, all times below the bounds, every rounding to a nearest binary64 number", "why_tests_cant": "A wrong last digit needs particular pairs of times out of 10^24; the error bound is over all doubles.", "anchors": ["database/mysql/mmodel/explain_analyze_result_line.go:132-141", "database/dservice/examiner.go:61-64", "client/src/models/ExaminationIndexResult.ts:9-17"]}
{"id": "C146", "title": "Loads and their ranking computed with float64", "statement": "The table of loads has the same rows, databases, SQLs, ids and largest loads as with exact numbers, and every sum of n samples is within 2n 2^-53 of the exact sum. Each bar of the ranking has the sum of the loads of its SQL in per cent up to the roundings done; a bar stands before another, or is shown instead of another, only if its exact sum is as large up to that. Sums closer than that can be in the wrong order.", "quantifier": "all samples that are not negative and far from overflow together, up to 2^50 of them, every rounding to nearest, every order of object members and every sort", "why_tests_cant": "Rounding errors add up over arbitrarily many samples and depend on their order.", "anchors": ["infra/aws/pi_sql_load_avg.go:24-81", "client/src/pages/dig/performance_insights/DbLoadRankingChart.ts:79-123", "client/src/pages/dig/performance_insights/DbTokenizedLoadRankingChart.ts:107-119"]}
{"id": "C147", "title": "Numbers and dates on the load pages", "statement": "toFixed gives the nearest decimal number with that many places, the larger of two, and a text is one such number only. toUTCString names the weekday, day, month, year and time of the Gregorian calendar, and different seconds have different texts. Pointing at a load of a timeline shows the hour of its row, the database, 100 times the load up to half a hundredth and one rounding, and the SQL. The table under a clicked bar has such a line for each SQL picked and is never empty.", "quantifier": "all numbers, all times of the years 0 to 9999, all tables of float64 loads, every rounding to nearest, every sort", "why_tests_cant": "All days of the calendar and all doubles; the date of the rows and the text of a load are checked for particular values only.", "anchors": ["client/src/pages/dig/performance_insights/util/LoadTooltip.ts:8-49", "client/src/pages/dig/performance_insights/HeavyTokenizedSqlTimeline.svelte:92-112", "client/src/pages/dig/performance_insights/HeaviestTokenizedSqlRanking.svelte:92-112", "client/src/pages/dig/performance_insights/DbLoadChart.ts:100-102"]}
{"id": "C148", "title": "Texts cut and sorted by UTF-16 units on the pages", "statement": "The legend of a series name with up to 20 UTF-16 units is the name, of a longer one its first 20 units and three dots, seen with U+FFFD if a character is cut in two; two names share a legend exactly if they are equal or both are longer and have the same first 20 units, so different SQLs of a chart can share one. The heading of a plan tooltip is cut after 50 units in the same way. The databases offered are sorted by units, which is the order of code points unless characters beyond U+FFFF meet characters from U+E000 to U+FFFF.", "quantifier": "all texts of Unicode characters, all tables of loads, every sort", "why_tests_cant": "Only texts with characters outside the basic plane at the cut or at the first difference show it; all texts and all positions are meant.", "anchors": ["client/src/lib/GrChart.ts:67-73", "client/src/pages/suggest/mysql/ExplainAnalyzeChart.svelte:33-37", "client/src/pages/suggest/postgres/ExplainAnalyzeChart.svelte:34-38", "client/src/pages/suggest/hasura/ExplainChart.svelte:34-38", "client/src/pages/dig/performance_insights/util/Databases.ts:3-8"]}
{"id": "C149", "title": "Charts of the components over their life", "statement": "However components with charts are opened, drawn again for other databases and closed, no drawing throws; a component has made one chart per drawing, its last chart shows the bars drawn last, calls the functions of that component's own GrChart (and, for a plan, has its height and title; loads in time are stacked bars over dates, rankings bars of their own), all its earlier charts were destroyed exactly once, an open component has exactly one live chart, and the modules' DEFAULT_CHART_OPTION constants never change. Closing a plan destroys its chart exactly once; closing a Performance Insights component leaves its last chart alive (finding).", "quantifier": "all sequences of openings, redrawings and closings of components of the five chart classes, with any bars, heights and titles", "why_tests_cant": "sharing of option objects between charts and leaked or doubly destroyed charts show only after particular sequences of events, of which there are infinitely many", "anchors": ["client/src/lib/GrChart.ts:21-52", "client/src/pages/dig/performance_insights/DbLoadChart.ts:65-80", "client/src/components/ExplainTree/ExplainTreeChart.ts:91-113", "client/src/pages/dig/performance_insights/HeavySqlTimeline.svelte:20-42", "client/src/pages/suggest/mysql/ExplainAnalyzeChart.svelte:17-30"]}
{"id": "C150", "title": "Charts of the Performance Insights page", "statement": "Whatever the reader clicks, checks and opens on the Performance Insights page, the charts never make it throw; each of the two components of the open tab has exactly one chart that was not destroyed, of the class of the component and with the bars of its current state, so that the timeline's chart shows exactly the loads of half a per cent or more of the databases checked there and the ranking's only loads of databases checked there; and after n changes of tab exactly 2n+2 charts are alive, so that 2n are left over from tabs that are gone (finding).", "quantifier": "all loads, all sequences of clicks on bars, checkboxes, radios and tabs", "why_tests_cant": "the number of live charts and the match of chart and state are relations over unbounded sequences of events", "anchors": ["client/src/pages/dig/performance_insights/DigPerformanceInsightsPage.svelte:10-53", "client/src/pages/dig/performance_insights/HeavySqlTimeline.svelte:20-42", "client/src/lib/GrChart.ts:30-40"]}
