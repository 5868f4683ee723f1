-Q theories Verif
theories/Base.v
theories/Dec.v
theories/Regex.v
theories/IndexText.v
theories/IndexTextSpec.v
theories/IndexTextProofs.v
theories/Examiner.v
theories/ExaminerSpec.v
theories/ExaminerProofs.v
theories/SuggestCmd.v
theories/SuggestCmdSpec.v
theories/SuggestCmdProofs.v
theories/IndexTextProperties.v
theories/ExaminerProperties.v
theories/SuggestCmdProperties.v
theories/IndexBuild.v
theories/IndexBuildSpec.v
theories/IndexBuildProofs.v
theories/TableFields.v
theories/TableFieldsSpec.v
theories/TableFieldsProofs.v
theories/BuildSpec.v
theories/BuildProofs.v
theories/IndexHeap.v
theories/IndexHeapProofs.v
theories/BuildProperties.v
theories/Existing.v
theories/ExistingSpec.v
theories/ExistingProofs.v
theories/ExistingProperties.v
theories/MysqlAst.v
theories/MysqlCollect.v
theories/MysqlSpec.v
theories/MysqlProofs.v
theories/MysqlProperties.v
theories/PgAst.v
theories/PgCollect.v
theories/PgSpec.v
theories/PgProofs.v
theories/PgTreeProofs.v
theories/PgRegionProofs.v
theories/PgWalkSpec.v
theories/PgWalkProofs.v
theories/PgFlowProofs.v
theories/PgProperties.v
theories/ExplainTree.v
theories/MysqlExplain.v
theories/PgExplain.v
theories/SingleTable.v
theories/ExplainSpec.v
theories/ExplainTreeProofs.v
theories/MysqlExplainProofs.v
theories/ExplainLevelProofs.v
theories/RegexInv.v
theories/PgExplainSpec.v
theories/PgExplainProofs.v
theories/PgExplainTreeProofs.v
theories/ExplainLineSpec.v
theories/ExplainLineProofs.v
theories/ExplainMatchProofs.v
theories/ExplainTableProofs.v
theories/MysqlExplainRoundtrip.v
theories/ExplainSoundProofs.v
theories/PgPrintSpec.v
theories/PgExplainRoundtrip.v
theories/SingleTableSpec.v
theories/SingleTableProofs.v
theories/ExplainNodeProofs.v
theories/ExplainProperties.v
theories/LimitedHeapSpec.v
theories/LimitedHeap.v
theories/LimitedHeapProofs.v
theories/Lib.v
theories/LibSpec.v
theories/LibProofs.v
theories/LibProperties.v
theories/Otel.v
theories/OtelSpec.v
theories/OtelProofs.v
theories/OtelForestProofs.v
theories/OtelCompactProofs.v
theories/OtelTimeProofs.v
theories/OtelFetchProofs.v
theories/OtelProperties.v
theories/Pi.v
theories/PiSpec.v
theories/PiProofs.v
theories/PiFetchProofs.v
theories/PiProperties.v
theories/Hasura.v
theories/HasuraSpec.v
theories/HasuraProofs.v
theories/HasuraProperties.v
theories/ConnText.v
theories/ConnTextSpec.v
theories/ConnTextProofs.v
theories/ConnTextProperties.v
theories/CommandText.v
theories/CommandTextSpec.v
theories/CommandTextProofs.v
theories/CommandTextProperties.v
theories/TraceDiagram.v
theories/TraceDiagramSpec.v
theories/TraceDiagramProofs.v
theories/MermaidProofs.v
theories/TraceDiagramProperties.v
theories/PlanView.v
theories/PlanViewSpec.v
theories/PlanViewProofs.v
theories/PlanViewProperties.v
theories/LoadCharts.v
theories/LoadChartsSpec.v
theories/LoadChartsProofs.v
theories/LoadChartsProperties.v
theories/JsCharts.v
theories/JsChartsSpec.v
theories/JsChartsProofs.v
theories/JsRankingProofs.v
theories/JsChartsProperties.v
theories/JsOrderSpec.v
theories/JsOrderProofs.v
theories/JsOrderProperties.v
theories/DigCommand.v
theories/DigCommandSpec.v
theories/DigCommandProperties.v
theories/Json.v
theories/JsonSpec.v
theories/JsonProofs.v
theories/JsonProperties.v
theories/Utf8.v
theories/Utf8Spec.v
theories/Utf8Proofs.v
theories/JsonBytesProofs.v
theories/Utf8Properties.v
theories/HandOver.v
theories/HandOverSpec.v
theories/HandOverProofs.v
theories/HandOverProperties.v
theories/PgArray.v
theories/SqlServer.v
theories/MetaSql.v
theories/Catalog.v
theories/CatalogSpec.v
theories/MetaSqlProofs.v
theories/CatalogProofs.v
theories/CatalogPgProofs.v
theories/CatalogReadProofs.v
theories/SqlRun.v
theories/MetaSqlProperties.v
theories/CatalogMyProperties.v
theories/CatalogPgProperties.v
theories/SearchPathProperties.v
theories/Program.v
theories/ProgramSpec.v
theories/ProgramProofs.v
theories/ProgramProperties.v
theories/ProgramMyProperties.v
theories/ProgramPgProperties.v
theories/HasuraProgram.v
theories/HasuraProgramSpec.v
theories/HasuraProgramProofs.v
theories/HasuraProgramProperties.v
theories/HasuraReportProperties.v
theories/HasuraVariablesProperties.v
theories/ReplaySpec.v
theories/ReplayProperties.v
theories/DigProgram.v
theories/DigPage.v
theories/DigProgramSpec.v
theories/DigJaegerProperties.v
theories/DigJaegerPageProperties.v
theories/DigJaegerStoreProperties.v
theories/DigPiProperties.v
theories/PiPage.v
theories/PiPageSpec.v
theories/PiPageProperties.v
theories/Paths.v
theories/PathsSpec.v
theories/PathsProperties.v
theories/Tooltip.v
theories/TooltipSpec.v
theories/TooltipProperties.v
theories/PlanChart.v
theories/TitleSpec.v
theories/TitleProofs.v
theories/TitleProperties.v
theories/FaultSpec.v
theories/FaultProperties.v
theories/RefusalSpec.v
theories/RefusalProperties.v
theories/RefusalPgSpec.v
theories/RefusalPgProperties.v
theories/MissingSpec.v
theories/MissingProperties.v
theories/Floats.v
theories/FloatsSpec.v
theories/FloatsProofs.v
theories/FloatTimes.v
theories/FloatTimesProofs.v
theories/Diary.v
theories/DiarySpec.v
theories/DiaryProofs.v
theories/DiaryProperties.v
theories/Transport.v
theories/TransportProperties.v
theories/DiaryCases.v
theories/DigDiary.v
theories/DigDiarySpec.v
theories/DigDiaryProperties.v
theories/DigDiaryCases.v
theories/KilledSpec.v
theories/KilledProperties.v
theories/HtmlFile.v
theories/HtmlFileSpec.v
theories/HtmlFileProofs.v
theories/HtmlFileProperties.v
theories/OnDiskSpec.v
theories/OnDiskProperties.v
theories/OnDiskCases.v
theories/CommandLine.v
theories/CommandLineSpec.v
theories/CommandLineProofs.v
theories/CommandLineFacts.v
theories/CommandLineProperties.v
theories/WholeProgram.v
theories/WholeSpec.v
theories/WholeProperties.v
theories/WholeCases.v
theories/WholeRun.v
theories/WholeRunSpec.v
theories/WholeRunProperties.v
theories/WholeRunCases.v
theories/WholeLineProperties.v
theories/WholeLineCases.v
theories/FloatLoadsSpec.v
theories/FloatLoadsProofs.v
theories/FloatsProperties.v
theories/PageText.v
theories/PageTextSpec.v
theories/PageTextCalendar.v
theories/PageTextProofs.v
theories/PageTextProperties.v
theories/Utf16.v
theories/Utf16Spec.v
theories/Utf16Proofs.v
theories/Utf16Properties.v
theories/ChartLife.v
theories/ChartLifeSpec.v
theories/ChartLifeProofs.v
theories/ChartLifeRun.v
theories/ChartLifeProperties.v
theories/PiCharts.v
theories/PiChartsProperties.v
