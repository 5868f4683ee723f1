# Formal model of GravityR

The subject is the Go tool in `/repo` (plus the small TypeScript client that
renders its reports).  The model is written in Rocq/Coq 8.16 under
`rocq/theories`.  This file says what is modelled, how each property of
`properties.jsonl` is proved, and what has to be trusted.

## Conventions

* Go strings are lists of code points (`list N`); C143 proves that equality,
  order, length, joining, cutting at an ASCII separator and searching are the
  same on their bytes.  Strings that are not valid UTF-8 are modelled on their
  way into the report (C144) and outside the model elsewhere.  `len` is modelled as the UTF-8 byte length where
  it matters.
* Errors are values, `nil` is an explicit case, panics are an explicit outcome,
  non-termination is shown with a fuel argument and proved absent where claimed.
* Map iteration order, `sort.Slice` (unstable), random numbers, slice growth and
  the answers of the database are oracles; theorems quantify over all of them.
* Regular expressions are transcribed into a regex syntax tree and run by a
  generic leftmost-first backtracking matcher (`Regex.v`), the semantics RE2/Go
  implements for `FindStringSubmatch`.
* Integers are `Z`/`N`/`nat`; wrap-around modulo 2^64 is written out wherever the
  property is about it.

## Layout

For each area `X`: `X.v` (model, every definition cites file and lines),
`XSpec.v` (independent specification), `XProofs.v`, and
`XProperties.v` (only the final theorems, non-vacuity examples and
`Print Assumptions`).

## Plan per property

| id | modelled | how |
|----|----------|-----|
| C01-C03 | `NewIndexTargetFromText` with its regexps, `strings.Split` | characterise the regex match on any line structure; round trip; iff |
| C04-C05 | `IsSafe`, `SafeName`, name construction in `examine` | induction on strings |
| C06-C08 | `Run`/`examine` as a trace of calls against an arbitrary database with arbitrary failures | invariant over the trace, prefix closed; refinement against a database of index names |
| C09 | SQL text builders + an SQL tokenizer as specification | tokenise(build x) = intended tokens |
| C10 | the `run` functions of the suggest commands as effect traces | case analysis over all flags and outcomes |
| C11, C12, C16-C18 | `calculateReferences`, `scopeInfo`, `refTables` with map-order oracle | induction over scope trees with an invariant "every lineage entry is a schema column" |
| C13, C15 | `compositeFieldColumns` (pure and with a slice heap), `extractEfficientIndexes` | exact membership + NoDup; simulation heap/pure |
| C14 | `Build` + `SortIndexTargetTable` | sorted permutations of the same multiset under a total order are equal |
| C19-C21 | remover, `toIndexInfo`, `CreateTableSchemas` | list induction |
| C56, C57 | `suggest_from`: the pipeline after collection | composition of C11-C21 |
| C22, C23, C58-C60 | MySQL expression/statement AST, generic walker, both collectors | structural induction against an occurrence relation |
| C61-C63 | `mysql_suggest`: collection, schemas, candidates, filter | composition; for all map orders and sorts |
| C24-C27, C64-C66, C69 | PostgreSQL AST, walker, both collectors (scopes on a heap) | structural induction; event trace of the walker; stack/heap invariant; concrete refutations |
| C67, C68 | `pg_suggest` | composition; every scope is listed by its parent; column lineage keeps names |
| C28-C32 | explain text parsers of both databases | stack invariant, render/parse round trip, regex lemmas |
| C33 | `BuildSingleTableExplainResults` | mutual induction over trees |
| C34-C37 | `lib`: heap (with `container/heap`'s up/down), uniq, time, set, stack | invariants and refinement |
| C38-C43, C70, C71 | span forest construction, compaction, consumed time, pickers, page, `dig` | induction over parent chains, stack invariant of the visitor, counting of nanoseconds |
| C44-C47 | time windows, durations, Performance Insights conversion | arithmetic (`lia`), induction over samples |
| C48, C72, C73 | Hasura metadata queries, their answers and the suggestions made from them | the text read by a small SQL lexer; independence of all but read-only answers; reuse of the PostgreSQL proofs |
| C49, C74 | configurations from the environment, PostgreSQL connection strings, MySQL data source names | decode(encode x) = x exactly for values without special characters, refutation for the others |
| C50 | `CreateOutputExaminationOption` | unique decomposition of file names |
| C51, C75 | option and command texts, index statements of the client | a POSIX shell reader and an SQL lexer read the text back |
| C52 | `toTraceNode` | induction over runs of children; expansion gives back the calls |
| C53, C76 | `toMermaidDiagram`, `toTraceTree` | a reader of diagram lines and a stack machine decode the text into the calls |
| C54, C77 | `createXTree`, `visitAnalyze`, `getSeriesData`, the loop of ExplainText | tree induction; both traversals equal the pre-order |
| C78-C80 | the plan from the printed text to the page | composition with the parsers' exactness and round-trip theorems |
| C55 | load chart series | invariant over the rows: one entry per key, its length and its points; the rows of the command have one load per key (from C45) |
| C81-C83 | ranking, raw SQLs of a tokenized SQL, database list | entries found by key, sums; any stable or unstable sort |
| C84 | offered dig command | the shell reader of C51 with an assignment in front |
| C85 | encoding/json of the report's data | an independent reader of object literals reads the text back; no `<`, `>`, `&` or line separator in it |
| C86 | Go view models as JSON, constructors of the page's objects, choice of the page | round trip of every structure |
| C87, C88 | the cards of the suggestion pages | composition with C86, C05-C08 and C51; iff for the examination without targets |
| C89, C90 | table of traces, link of a row | sorted permutation; authority of a URL |
| C91-C95 | metadata queries as texts, sqlx, a small SQL server over typed catalogs, readers of the rows | the texts parsed for any number of tables; joins evaluated as lists of tuples; permutation, sortedness and counting |
| C96, C97 | the suggest commands against the catalogs | composition with C19-C23, C61, C68, C73 |
| C98 | configuration, connection text and schema of the PostgreSQL command | composition of C49, C66 and C94 with PostgreSQL's rule for unqualified names |
| C99, C100 | the two suggest commands from start to end against a server with a state | the trace of every run is a conversation (inductive grammar), from the steps of each part; the rest by induction over conversations |
| C101 | the same | false (refuted on a server that runs all statements of a text); what was sent is characterised |
| C102, C103 | the same, the report opened in the browser model | composition of C96/C97, C78, C85-C91 and the examiner results along the run |
| C104 | the Hasura command from start to end, with request bodies, status and JSON answers | as C99; requests are read by an independent reader of the bodies |
| C105 | the same, the report opened in the browser model | composition of C97, C78, C85-C88 along the run |
| C106 | the timing of the GraphQL query | false (a failed query is timed); what counts as a run is characterised |
| C107 | the variables of the GraphQL query | induction over JSON values; exactness is false beyond 53 bits |
| C108 | reading of the explanation | case analysis on the answer for any number of queries |
| C109 | the acts of the three suggest commands | a predicate kept by every combination of steps; induction over the targets |
| C110 | the Jaeger dig command against services with a state | every act goes through one primitive that records act and answer; induction over the half hours with an invariant on the questions |
| C111 | its report and page | the theorems on forests, compaction, picking and hand over, composed along the run |
| C112 | a server that keeps traces | arithmetic of the half hours; each wanted span has its question |
| C113 | the Performance Insights dig command against services with a state | the run is compared with its plan of questions; a run equals the fetching of C46 for every client that gives the recorded answers |
| C114 | its report and page | grouping by hour, database and SQL keeps every sample; refutations by concrete services |
| C115 | the four charts of the Performance Insights page as machines driven by events | an invariant kept by every event, with the theorems on the charts (C55, C81, C82); refutations by concrete clicks |
| C116 | the page with its tabs | simulation: the state of a chart is reached by its own events |
| C117 | the path logged for the report, with Go's path.Clean and path.Join | following a path is kept by cleaning: invariant over the parts |
| C118 | the URLs of Hasura's end points, with escaping | as C117, and escaping is undone by decoding |
| C119 | the tooltips of the load charts and a browser's reading of HTML | a text without markup is read as itself, the templates are read one piece after the other |
| C120 | the tooltips of the plans | as C119, with trimming and cutting of the texts |
| C121 | the titles of the nodes and the labels of the bars | the regular expressions against a separate text specification, by the matcher's rules; then the printed-plan round trip and the page |
| C122 | what a command says and does after the first failure of the server or the file system | the acts are split at the first failed one; a compositional predicate over the parts of the three commands says that the result is the error with the words for that act and that only the drop of the tried index and the closing follow |
| C123 | the words of a refused MySQL statement | a separate specification lists the messages with the kind of node and the place each one speaks of; the walk keeps the invariant that every collected or pending message is justified by the tree |
| C124 | the words of a refused PostgreSQL statement | the same over the walker's events; nodes of unsupported kinds hide the other messages |
| C125 | every error of a suggestion | composition of C123/C124 with the messages of the column and index questions and of the missing tables and columns; each name told is written in the statement or read by it |
| C126 | the suggest commands with every line they log between what they do | erasing the lines gives Program and HasuraProgram; every run is a calm part, announced steps, a calm part: shape invariant over the composition of the commands |
| C127 | the lines about suggestions and results against the report written | same shape; grouping by table as a fold with permutation invariant, any map order and sort |
| C128 | the process: levels, note about the mock, error line, status | from C126 by filtering the levels |
| C129 | the password in the environment, the HTTP transport, the header with the admin secret | two runs compared step by step; the URL is shown whole (finding) |
| C130 | the dig commands with the lines they log | erasure lemma as for C126; windows and requests as a list of pairs; an adjacency predicate kept by concatenation |
| C131 | the loop of Recv over any sequence of answers | induction over the answers |
| C132 | the diaries of C126 cut off behind any entry | the steps of an examination as a grammar (also part of C126 and C128 now); what is open in a prefix of it |
| C133 | CreateHtml step by step on a disk, any host | a reader of raw text elements (HTML) applied to the whole page; case analysis of the steps, induction over the writes |
| C134 | the five commands with CreateHtml as the world's way to write | every program either writes nothing or writes once and answers what the write answered; the state behind a run is the one its acts lead to |
| C135 | the tree of commands with their flags, cobra's search for the command and pflag's parser | the parser accepts exactly an inductive grammar over a separate table of options (both directions by induction over the words); the command found by a walk through the tree |
| C136 | the command texts of the pages, the shell and the command line together | composition of the shell round trip (C50, C51, C84) with C135 |
| C137 | `gr` from the command line to the end of the command, twice, with the page and the shell between | composition of C135, C136, the reports (C102, C103, C105) and the conversations (C99, C104) |
| C138 | `gr_run`, every command from the command line to its end | the conversations (C99, C104, C110, C113) under the options read from the line (C135); nothing is assumed of the line |
| C139 | `gr_run` | C135: exactness of running and of help |
| C140 | `gr_run` | the conversations with the values that the settings give to each option (C135) |
| C141 | `js_load_series`, `js_ranking`, `js_create_raw_loads` | simulation between the heap of shared series and the list of LoadCharts.v; a ranking is a permutation (Object.keys) of the entries of the filtered table |
| C142 | `js_keys`, `js_ranking`, `pick_raw_loads` | the members are the first appearances of the names in the table (invariant over the loops); canonical decimal texts; a stable sort keeps the order of equals |
| C143 | `encode`, `decode`, Go's operations on strings | induction over the texts with the table of RFC 3629; the first byte of a code point is never an inner byte of another, so matches and cuts line up |
| C144 | `json_string_bytes`, `report_bytes` | the scan of a string reads code points and single bad bytes; the reader of C85 over any way of writing strings; `bytes_kept_refuted`: ISO 8859-1 data become U+FFFD |
| C145 | `fl` (binary64, half to even), `f_total_time`, `f_reduction`, `f_reduced_text` | any rounding to a nearest number of the format has relative error 2^-53; the errors of the steps are added up; with times below the bound the error is less than the distance of a fraction to the middle of two decimals; `percent_half_refuted` |
| C146 | `f_rows`, `f_ranking` | the run with rounding and the exact run side by side: same keys, sums within 2k roundings after k samples (step: (1+2k e)(1+e) <= 1+2(k+1) e); then the ranking argument of C81 with a tolerance; `ranking_exact_refuted` |
| C147 | `to_fixed`, `utc_string`, `raw_table` | the digits are read back (induction over the places); the date of a day against a calendar given only by its first day and the day after a day: the formula is periodic in 146097 days, one period is computed, the rest follows; the hour of a row, the load and the SQL are in the text the browser shows (with C119) |
| C148 | `utf16`, `legend`, `short_units`, `page_databases` | units against table 3-5 of the standard as a relation; what is seen of a cut string by induction over the text, with the cut inside a character as a case of its own; `trim` commutes with the units because no unit of a pair is white space; order at the first difference; `…_refuted` for the three findings |
| C149 | `render`, `render_chart`, `assign_option_functions`, `destroy`, `happen` over a heap of JavaScript objects | `after`: what is open and drawn, as a relation on the events; invariant per component (one chart per drawing, the last one with its own functions, all before destroyed once) and on the heap (constants are a prefix that no assignment reaches), by induction over the events; `alive_open_refuted` for the finding |
| C150 | `page_whole`: the page of PiPage.v driving the charts of ChartLife.v | simulation: after each event of the page the components are those of the tabs left and two for the open tab, drawn from its state; charts alive counted by a bijection with the components |

Properties that are false of the code are kept, with a `..._refuted` theorem
giving the counterexample, next to the strongest true variant.

## Trusted base

* Coq's kernel (8.16.1), including `vm_compute` for examples and counterexamples.
* Axioms: none.  `Print Assumptions` follows every theorem named in
  `MANIFEST.json` and prints "Closed under the global context" for each of them.
  (`coqchk` also lists parameters of the standard library's own module types, such as
  `Coq.ssr.ssrunder.Under_rel`, which are loaded with `lia`; no theorem uses them.)
* The transcription of the Go/TypeScript code into Gallina (by hand; every
  definition cites its lines).
* The assumptions below about what is outside the model.

## What is modelled, what is not

| area | files (under `/repo`) | simplifications, not modelled |
|------|------|------|
| IndexText, Regex | `database/dmodel/index_target.go`, `lib` regex users | regex engine is a generic leftmost-first matcher; strings are valid UTF-8 |
| Examiner | `database/dservice/examiner.go`, `{mysql,postgres}` ALTER/CREATE/DROP builders | the database is an arbitrary answer function; time is an oracle; logging is in Diary |
| SuggestCmd | `cmd/...suggest...` `run` functions | flag parsing is in CommandLine; HTML rendering, file system contents |
| CommandLine | `cmd/{root,db,app,version}.go`, `cmd/db/{suggest,dig}.go`, `cmd/app/dig.go`, `cmd/flag/*.go`, every `init` of the commands | cobra v1.6.1 and pflag v1.0.5 are restated from the libraries, which are not in /repo; the commands help and completion, __complete, suggestions for misspelt commands and the texts of help are left out; strconv.ParseInt and `%q` are parameters |
| WholeProgram | `main.go`, the `RunE` functions of the suggest commands | the other commands are an arbitrary function here; they are modelled in their own files |
| WholeRun | `main.go`, the `RunE` functions of all commands | `version`, `help` and `completion` print and do nothing else; the clock is read once per run; `--use-mock` only changes the AWS client, which is arbitrary |
| IndexBuild, IndexHeap | `database/dservice/dparser/index_target_builder.go`, `index_target_table.go` | slice growth is an oracle in IndexHeap |
| TableFields | `dparser/build_table_fields.go`, `stmt_scope.go` | pointer identity of `lo.Uniq` on pointers treated as "no effect" |
| Existing | `existing_index_remover`, `toIndexInfo`, `CreateTableSchemas`, `collect_table_schemas.go` | SQL execution; `sqlx.In` is modelled as "fails on an empty list" |
| Mysql* | `database/mysql/mservice/parser/{collect_stmt_scopes,collect_table_names,index,parse}.go`, `index_suggester.go` | the TiDB parser (its result is the input); text positions in error messages; `Accept` visits children in source order; window specifications, hints and lock clauses inside a SELECT carry no expressions in the AST; window frames likewise |
| Pg* | `database/postgres/pservice/ast/ast_walker.go`, `pservice/parser/{collect_stmt_scopes,collect_table_names,index}.go`, `parse.go`, `index_suggester.go` | the parser (its result is the input); AST nodes with the same shape share a constructor with a tag; SELECT and subquery nodes carry an address, distinct in every parsed tree; error messages without type names and node texts; endless recursion on a parenthesised table is `Panic` (Go's stack overflow); name normalisation is an arbitrary function |
| MysqlExplain, PgExplain, ExplainTree | `mysql/mservice/explainer.go`, `mmodel/explain_analyze_result_line.go`, `postgres/pservice/explain_analyze_tree_builder.go`, `pmodel/explain_analyze_result_node.go` | floats are rationals (`strconv.ParseFloat` without rounding, range error as error; C145 bounds what rounding changes); titles are left out; pointer sharing of the node stack is replaced by a zipper |
| SingleTable | `dservice/build_single_table_explain_results.go` | times are rationals (C145 bounds what rounding changes in them) |
| Floats, FloatTimes | the float64 arithmetic of `mmodel/explain_analyze_result_line.go:132-141`, `infra/aws/pi_sql_load_avg.go:51`, `printExaminationResult`, `ExaminationIndexResult.ts:9-17`, `DbLoadRankingChart.ts:79-123` | no overflow, NaN and infinities (C127 has the two that can be logged); theorems hold for any way to decide ties |
| Utf16 | `client/src/lib/GrChart.ts:67-73` (legends), the cut of the headings of the three plan charts, `util/Databases.ts:3-8`, with JavaScript strings as UTF-16 units | strings of JavaScript and how lone surrogates are drawn are restated; fonts, combining characters |
| ChartLife | `client/src/lib/GrChart.ts:21-52`, `render` and `assignFunctions` of the five chart classes, their DEFAULT_CHART_OPTION, `onMount` and `onDatabaseChanged` of the seven components | JavaScript objects as cells of a heap, JSON.parse and JSON.stringify as copies; what ApexCharts and Svelte do inside; members of DEFAULT_CHART_OPTION that are numbers or booleans are texts |
| PiCharts | `client/src/pages/dig/performance_insights/DigPerformanceInsightsPage.svelte:10-53` with `onMount` and `onDatabaseChanged` of its four components | Svelte's order of closing one tab and mounting the other (immaterial for what is shown); after an exception nothing is said |
| PageText | `toFixed`, `toUTCString` as used in `util/LoadTooltip.ts`, `HeavyTokenizedSqlTimeline.svelte:92-112`, `HeaviestTokenizedSqlRanking.svelte:92-112`, `yaxisLabelsFormatter` | restated from ECMAScript; numbers of 10^21 and more; years outside 0-9999 are in the model but not in the theorems |
| LimitedHeap, Lib | `lib/{heap,set,uniq,stack,time,join}.go`, Go's `container/heap` | the array of the heap is a list; times are integers of nanoseconds (no monotonic clock, no year limits) |
| Otel | `otel/jaeger/{v1_converter,trace_picker,trace_fetcher}.go`, `otel/omodel/*.go`, `infra/jaeger/client.go` (as an arbitrary server), `prepare` and `dig` of `cmd/app/dig/jaeger.go` | gRPC, environment variables, logging, HTML; the links between spans are the keys of the map; nested attribute maps stay lists; orders of map visits and sorts are oracles |
| Pi | `infra/aws/{performance_insights,pi_sql_load_avg,rds}.go`, `lib/time.go:NormalizeTimeByHour`, `dig` of `cmd/db/dig/performance_insights.go` | AWS is an arbitrary answer to each call; loads are any type with an addition and a comparison; zones have a fixed offset; the two maps of pointers are one list of entries |
| Hasura | `infra/hasura/{client,column_info,index_info}.go`, `database/hasura/hservice/{index_suggester.go,parser/collect_table_schemas.go,parser/index.go}` | the server is an arbitrary function from SQL requests to rows or an error; pq.StringArray.Scan is a parameter; JSON and HTTP are not modelled |
| ConnText | `infra/{postgres,mysql,hasura}/config.go`, `lib/env.go` | url.Parse is a parameter; the readers of lib/pq v1.10.7 and go-sql-driver v1.6.0 (and its FormatDSN) are restated from the libraries, which are not in /repo |
| CommandText | `html/viewmodel/vm_examination_command_option.go`, `client/src/models/{ExaminationCommandOption,IndexTarget,PostgresIndexTarget,HasuraIndexTarget}.ts`, `buildCommandText` of `client/src/components/IndexSuggestion.svelte` | slash is the path separator; the DOM around the text |
| TraceDiagram | `client/src/models/{OtelTraceSpan,OtelCompactedTrace}.ts`, `client/src/models/trace_diagram/*.ts` | the input is the view model of Otel (HandOver shows the browser has the same); mermaid itself |
| PlanView | `ToViewModel` of `database/{mysql/mmodel,postgres/pmodel}/explain_analyze_tree{,_node}.go`, `client/src/components/ExplainText.svelte`, `client/src/components/ExplainTree/ExplainTree.ts`, `client/src/models/explain_data/*.ts` | object identity of nodes; exact arithmetic; tooltips and chart options |
| LoadCharts | `client/src/pages/dig/performance_insights/{DbLoadChart,DbTokenizedLoadChart,DbLoadRankingChart,DbTokenizedLoadRankingChart}.ts` (series), `util/chart/{LoadPropChartSereies,TokenizedLoad}.ts`, `util/Databases.ts`, `HeavySqlTimeline.svelte:21-28` | exact arithmetic (C146 bounds what rounding changes); object members inherited from Object (see JsCharts); UTF-16 order of names (see Utf16); tooltips, chart options, ApexCharts |
| JsCharts | the same chart functions with the objects they use as maps: members of `Object.prototype`, shared series, the order of `Object.keys` | members put on `Object.prototype` itself (a database called `__proto__`) are seen only through that name; what an inherited member of a function object is (`member`) is a parameter |
| DigCommand | `client/src/pages/dig/performance_insights/util/CommandText.ts` | the shell is the reader of CommandTextSpec |
| Json | `html/html_builder.go` and the template with encoding/json as html/template uses it | strings are valid UTF-8 (Utf8: any bytes); the text of numbers is a parameter |
| HtmlFile | `html/html_builder.go` CreateHtml, the whole template | two paths are two files; files hold characters; embedded files, os.Create and writes are any answers; the template parses; html/template leaves its texts as they are |
| HandOver | `html/build_option.go`, `html/viewmodel/*.go`, `createHTML` of the suggest commands, `client/src/{App,Mermaid}.svelte`, `client/src/stores/gr_param.ts`, `client/src/models/*.ts`, the suggest pages, `IndexSuggestion.svelte`, `ExaminationResultTable.svelte`, `TracesTable.svelte` | class-transformer fills records of the declared types; sql-formatter is a parameter; numbers as the reader's country writes them; layout and style |
| MetaSql, SqlServer, Catalog, PgArray | `infra/{mysql,postgres}/{column_info,index_info,db}.go` (texts, requests, reading of rows) | sqlx.In, Rebind and Select, PostgreSQL's and MySQL's evaluation of these SELECTs, pg_get_indexdef, array_out and pq.StringArray.Scan are restated; a server may fail at any time and order rows as ORDER BY allows |
| Program | `cmd/db/suggest/{mysql,postgres}.go` run, suggest, examine; `infra/{mysql,postgres}/db.go` | the server, connection and file system are any state machine; parsers are functions of the text (their answers as in C16-C26); logging and the printing of suggestions to stdout are left out |
| HasuraProgram | `cmd/db/suggest/hasura/postgres.go`, `infra/hasura/{client,query,explain_request_body,explain_response,run_sql_args,run_sql_response}.go`, `database/hasura/hservice/index_examiner.go` | the server and file system are any state machine; the JSON parser is a function of the text; headers and URL are left out; float64 conversion is a parameter |
| Diary, Transport | every log call of `database/dservice/examiner.go`, `cmd/util/log.go`, `cmd/root.go`, the suggest commands, `collect_table_schemas.go`; `lib/http_transport.go` | time stamp and colours of zerolog, text of a panic and stack traces left out; percentages in exact arithmetic; `%q` and url.Parse are functions of the text; redirects left out |
| DigProgram, DigPage | `cmd/app/dig/jaeger.go`, `infra/jaeger/client.go`, `otel/jaeger/trace_fetcher.go`, `cmd/db/dig/performance_insights.go`, `infra/aws/*.go`, `client/src/pages/dig/jaeger/{DigJaegerPage,TracesTable,TraceDiagram}.svelte` | Jaeger, AWS and the file system are any state machine; a stream is read as one answer; configuration of the AWS client, logging, numbers as the reader's country writes them, the rendering of Mermaid |
| DigDiary | the lines logged by `cmd/app/dig/jaeger.go`, `otel/jaeger/trace_fetcher.go`, `cmd/db/dig/performance_insights.go`; `infra/jaeger/client.go` FindTraces | texts of times are any functions; the zone of a time is left out |
| PiPage | the four `.svelte` charts and the page in `client/src/pages/dig/performance_insights`, the click handler of `client/src/lib/GrChart.ts` | the checked list is up to date when its handler runs; ApexCharts reports the bar clicked; tooltips, rendering and the clipboard |
| Paths | `cmd/util/log.go:18-23`, `infra/hasura/client.go:149-153` | Go's path.Clean, path.Join and the escaping of net/url are modelled by their documented effect; url.Parse is not modelled; no symbolic links |
| Tooltip | `client/src/pages/dig/performance_insights/util/LoadTooltip.ts`, `client/src/lib/GrChart.ts:56-65`, `createTooltip` of the three plan charts | texts of numbers and dates are given functions without markup; a browser's reading of HTML is simplified (a tag ends at the first closing bracket, one named character reference); lengths in characters, not UTF-16 units (see Utf16) |
| PlanChart | `client/src/components/ExplainTree/ExplainTreeChart.ts:69-126`, `client/src/lib/GrChart.ts:56-65,89-103` | the chart library calls the formatters with the index of the bar; colours and fonts are not modelled |

Lower casing is an arbitrary function on code points, so theorems about names
hold for any case mapping that works code point by code point.

## Wrong programs

`seeded/LOG.jsonl` has one line per attempt.  How to read it:

- `failed` names the lemmas, examples or theorems at which the build stopped.  Often this is
  a lemma early on, and what depends on it was not tried.
- A refused proof says that the proof no longer goes through.  It does not by itself show
  that the statement became false: a proof script may also break for its form.  This was
  not looked into for each line.
- In nine attempts the edited definition did not compile, and two were stopped by the time
  limit.  They tested nothing; they have an empty `failed` and a `note`, and were done again
  further down.  One more (`gr`) failed for a changed number of arguments only, and was done
  again as well.  Another (`rows_of_tab`) did not compile at first; done again, it survived,
  and `pi_tabs_apart` was tightened.

## Findings

Statements that one would expect to hold, with the counterexample proved:

* The command that the Performance Insights page offers for a heavy SQL lacks the name
  of the database (`gr db suggest -o ... -q ...`): the program refuses it for every SQL
  with `unknown shorthand flag: 'q' in -q` (C136, `dig_command_refused`).
* Words that are no options are dropped silently: `-q SELECT 1` without quotes checks
  the query `SELECT`, and `--with-examine false` examines (C135, `extra_words_ignored`).
* A report is written in place: when writing fails (a full disk), the earlier report
  at the path is gone and a cut one is left (C133, `earlier_report_lost`).
* An index text with line breaks is accepted if only one of its lines is well
  formed (C02); an unsafe table name breaks out of the statement (C09); a malformed
  `--indexes` option is noticed too late by the Hasura command (C10).
* No candidate or no table: reported as a failure of the suggestion (C56).
* A column visible two levels up or an alias hiding a table name is attributed
  wrongly or refused (C16-C18, `sql_visibility_refuted_*`).
* Ambiguous unqualified names make the result depend on map order (C14).
* MySQL: columns under COLLATE, `:=` and `GROUP_CONCAT(.. ORDER BY ..)` are
  lost (C22); USING columns are ignored (C58); WITH slips through if nothing is
  examined after it (C59); ordering by an output name and derived tables fail
  (C63); an empty text crashes (C62).
* PostgreSQL: OFFSET and ORDER BY inside functions are never visited (C24); UNION,
  parentheses, `ROWS UNBOUNDED PRECEDING`, parenthesised joins, a derived table
  before the last FROM item, a subquery with UNION and DISTINCT ON with a subquery
  crash (C25, C67); only the last item of a comma list is kept (C26); WITH with a
  VALUES query slips through and crashes (C65); a WITH query named like the table it
  reads hides that table (C66); quoted mixed case table names fail (C69).
* Explain: words inside a literal are taken for a table, costs in scientific notation
  are silently null (C29); a PostgreSQL plan without summary loses its last node
  (C30); `public.users` is reported as table `public` (C32); the per-table results
  crash on a join whose second input repeats a table, and repeat tables (C33).
* Traces: an attribute without a value crashes the conversion (C38); a child that
  outlives its parent makes the consumed time too small or wrap around (C40); the
  fraction of the last second is never asked for (C44).
* Performance Insights: a start in a zone that is not whole hours off UTC (also the
  default start, in a local zone such as India's) loses every sample, and so do
  samples not given in UTC (C45); the 169th row is never filled for a start on the
  hour (C46); instances beyond the first page of 100 are not dug; the report is created
  even without a name, which fails after the whole week was fetched; a start that cannot
  be read is noticed after asking for the databases (C113, C114).
* Jaeger: a trace with spans in two half hours is taken and shown twice; a page that says
  that its traces took more than 1000 ms shows rows of 1 ms; a count of 2^32 asks for
  nothing (C112).
* The ranking of plain SQLs keeps its command when the database is unchecked; the plain
  SQLs of a tokenized bar come from all databases; a bar whose id has no plain SQL breaks
  the page when clicked, so that the row saying that there is no data is never shown (C115).
* The path logged for an absolute output is that of another file (C117); with a slash at
  the end of HASURA_URL the offered curl command posts to another URL than the client, and
  an escaped slash in it is lost (C118).
* SQLs and plan texts are put into the tooltips as HTML: what follows a `<` and a letter is
  not shown, MySQL's `<temporary>` neither, and a tag in an SQL becomes an element of the
  page (C119, C120).  Pointing at a point without load is a TypeError (C119).  PostgreSQL's
  times are not shown if the first row came at 0 (C120).  A colon inside a
  literal cuts a MySQL node's title there (C121). If the query fails while an index is
  tried and the index cannot be dropped either, the error of the drop is lost (C122).
* Errors of `lib/errors.go` wrap an empty message and read `: message`; the error for an unexpected
  table source names neither node, `reflect.Type.Name` of a pointer being empty (C123).  A
  statement that reads no table or needs no index ends with the words of an empty IN list (C125).
* An original time of 0 ms is logged as NaN% or -Inf% (C127). With --verbose a password in
  HASURA_URL is logged (C129).
* Hasura: tables whose names are not words are refused; a statement without candidates
  sends `IN ()`, which PostgreSQL refuses (C48, C73).
* Configuration: a quote or backslash in the PostgreSQL password corrupts the
  connection string, `sslmode` of DB_PARAM_TEXT never has an effect (C49); a slash in
  the MySQL parameters is taken for the start of the database name (C74).
* Client: table and column names are put unescaped into the offered `-i` words, so a
  dollar, backquote, quote or backslash in a name changes the command (C51).
* Client: service names are put into the diagram unescaped, so a name with a line end can
  add activations that are never closed (C53).
* Hasura: its plans have no summary, so the last node never reaches the page and a plan
  of one node is not shown at all (C78).
* Load charts: a series that begins later has its first points at the time of the row in
  which it begins (C55); the id of a fetched SQL is dropped when another SQL has the same
  (cut) text, and choosing its tokenized SQL is then a TypeError (C82); the offered
  command does not escape the SQL (C84) and names no sub command of `gr db suggest`.
* The report of an examination without targets cannot be opened (C88); with no suggestion
  MySQL and Hasura show an empty suggestion card (C87); a GraphQL variable `__proto__` is
  lost (C87); the link of a trace drops the base path of the UI (C90); an original time of
  0 ms gives no percentage.
* Catalogs: MySQL views are accepted, and tables of a server with
  lower_case_table_names=2 are refused as views (C92); a MySQL index on an expression makes
  every suggestion for its table fail (C93); PostgreSQL columns are read once per index
  and dropped ones too, partitioned tables are refused as views (C94); an index on a
  column whose name needs quotes is suggested again, partial indexes, INCLUDE columns and
  indexes on prefixes hide candidates (C96, C97).
* DB_SEARCH_PATH chooses the catalogs read but is not sent with the connection, so the
  statement is run on one table and checked against another; with several schemas in it
  every statement is refused, and so is one that names the schema (C98).
* The query is sent behind EXPLAIN ANALYZE before it is parsed: when the command refuses a
  text of several statements on PostgreSQL, they have all been executed (C101).
* Hasura answers a GraphQL query that failed with status 200 and a list of errors; the
  examination takes this for a run and shows its time (C106).
* Whole numbers beyond 53 bits in the GraphQL variables are sent as other numbers (C107).
* C141: a database instance called `constructor` (a legal RDS identifier) is in no load ranking
  (`every_database_ranked_refuted`) and its timeline is empty from the second drawing on
  (`drawn_again_refuted`), because the charts use plain objects as maps. An SQL or a tokenized id that is
  the name of a member of `Object.prototype` makes the page throw.
* C145: the model of the log line had said 81.3% for 3 ms of 16 ms; float64 and Go's formatting give 81.2%, so
  the log line is now computed with `fl`.
* C150: each change of tab on the Performance Insights page leaves two more charts that are never destroyed (`page_charts`).
* C149: the components of Performance Insights give `onMount` no function to call at the end, so that the charts of a tab that
  was left are never destroyed (`alive_open_refuted`); the components of plans do, and theirs are.
* C148: different SQLs can have the same legend (first 20 units); a cut can go through a character; names beyond U+FFFF
  sort before ones from U+E000 on.
* C147: the line `No data' of the table of plain SQLs can never be shown: a bar's id without SQLs is a TypeError (C82).
* C146: SQLs whose sums of loads differ by less than the rounding can be ranked in the wrong order.
* C144: bytes that are not UTF-8 (a query from an ISO 8859-1 terminal) are U+FFFD in the report, and
  different data give the same report (`bytes_kept_refuted`).
