-Q theories Verif
theories/Prelude.v
theories/Dec.v
theories/Status.v
theories/Course.v
theories/ListFacts.v
theories/Claims.v
theories/ClaimsSpec.v
theories/ClaimsProofs.v
theories/ClaimsProps.v
theories/LazyProduct.v
theories/Ncr.v
theories/EnumSpec.v
theories/EnumProofs.v
theories/EnumProps.v
theories/Paths.v
theories/StrFacts.v
theories/PathsSpec.v
theories/PathsProofs.v
theories/PathsProps.v
theories/Grades.v
theories/Op.v
theories/OpMemo.v
theories/OpSpec.v
theories/OpProofs.v
theories/OpMemoProofs.v
theories/OpProps.v
theories/Exceptions.v
theories/ExceptionsProofs.v
theories/ExceptionsProps.v
theories/Context.v
theories/CondExpr.v
theories/CondExprSpec.v
theories/CondExprProofs.v
theories/CondExprProps.v
theories/Predicate.v
theories/PredicateSpec.v
theories/PredicateProofs.v
theories/PredicateProps.v
theories/LazyRun.v
theories/Limit.v
theories/LimitSpec.v
theories/LimitProofs.v
theories/LimitProps.v
theories/Transcript.v
theories/TranscriptSpec.v
theories/TranscriptProofs.v
theories/TranscriptProps.v
theories/Apply.v
theories/Assertion.v
theories/AssertionSpec.v
theories/ApplyProofs.v
theories/AssertionProofs.v
theories/AssertionProps.v
theories/Keys.v
theories/LimitLoad.v
theories/Query.v
theories/QuerySpec.v
theories/QueryProofs.v
theories/QueryProps.v
theories/CourseRule.v
theories/CourseRuleSpec.v
theories/CourseRuleProofs.v
theories/CourseRuleProps.v
theories/Tree.v
theories/TreeSpec.v
theories/TreeProofs.v
theories/TreeStatusProps.v
theories/TreeSolSpec.v
theories/TreeSolProofs.v
theories/TreeSolProps.v
theories/TreeAskSpec.v
theories/TreeAskProps.v
theories/TreeAuditSpec.v
theories/TreeAuditProofs.v
theories/TreeAuditProps.v
theories/Solve.v
theories/SolveSpec.v
theories/SolveProofs.v
theories/SolveSafe.v
theories/SolveProps.v
theories/Driver.v
theories/DriverSpec.v
theories/DriverProofs.v
theories/DriverProps.v
theories/Area.v
theories/AreaSpec.v
theories/AreaProofs.v
theories/AreaProps.v
theories/ExactProps.v
theories/AreaOnceSpec.v
theories/AreaOnceProofs.v
theories/AreaOnceProps.v
theories/Loader.v
theories/LoaderSpec.v
theories/LoaderProofs.v
theories/LoaderTree.v
theories/LoaderProps.v
theories/AreaLoad.v
theories/CommonSpec.v
theories/CommonProofs.v
theories/CommonProps.v
theories/AreaLoadSpec.v
theories/AreaLoadProofs.v
theories/AreaLoadProps.v
theories/AreaClaim.v
theories/AreaEndProps.v
theories/TableSpec.v
theories/TableProps.v
theories/Round.v
theories/RoundProofs.v
theories/Ms.v
theories/MsProps.v
theories/Catalog.v
theories/CatalogProps.v
theories/Server.v
theories/ServerSpec.v
theories/ServerProofs.v
theories/ServerHist.v
theories/ServerActive.v
theories/ServerProps.v
theories/ServerFlow.v
theories/ServerExpire.v
theories/Batch.v
theories/BatchProps.v
theories/Estimate.v
theories/EstimateSpec.v
theories/EstimateProofs.v
theories/EstimateLoad.v
theories/EstimateProps.v
theories/Label.v
theories/LabelSpec.v
theories/LabelProofs.v
theories/LabelProps.v
theories/StudentLoad.v
theories/StudentSpec.v
theories/StudentProofs.v
theories/StudentProps.v
theories/Run.v
theories/RunSpec.v
theories/RunProps.v
theories/LimitLoadSpec.v
theories/LimitLoadProofs.v
theories/LimitLoadProps.v
theories/Json.v
theories/JsonSpec.v
theories/JsonProofs.v
theories/JsonProps.v
theories/Report.v
theories/ReportSpec.v
theories/ReportProofs.v
theories/ReportProps.v
theories/Claimed.v
theories/ClaimedProps.v
theories/Discover.v
theories/DiscoverProps.v
theories/Export.v
theories/ExportProps.v
theories/Testbed.v
theories/TestbedProps.v
theories/Stored.v
theories/StoredProps.v
theories/MsRead.v
theories/MsReadProps.v
theories/Index.v
theories/IndexProps.v
theories/AreaCache.v
theories/AreaCacheProps.v
theories/PlanSpec.v
theories/PlanProofs.v
theories/PlanTop.v
theories/PlanProps.v
theories/MonoSpec.v
theories/MonoProofs.v
theories/MonoTop.v
theories/MonoProps.v
theories/WaiveSpec.v
theories/WaiveProofs.v
theories/WaiveProps.v
theories/MissingArea.v
theories/MissingSpec.v
theories/MissingProps.v
theories/Dotenv.v
theories/DotenvSpec.v
theories/DotenvProps.v
theories/Autop.v
theories/AutopSpec.v
theories/AutopProps.v
theories/MonoQuery.v
theories/MonoAskSpec.v
theories/MonoAskProps.v
theories/Client.v
theories/ClientSpec.v
theories/ClientProofs.v
theories/ClientProps.v
theories/Validate.v
theories/ValidateSpec.v
theories/ValidateProofs.v
theories/ValidateProps.v
theories/Bulk.v
theories/BulkSpec.v
theories/BulkProofs.v
theories/BulkProps.v
theories/MajorProps.v
theories/Fetch.v
theories/FetchSpec.v
theories/FetchProps.v
theories/BranchProps.v
theories/WholeProps.v
theories/Reprint.v
theories/ReprintSpec.v
theories/ReprintProps.v
theories/LimitApartProps.v
theories/MonoLimitProps.v
theories/MonoExcProps.v
theories/WaiverLoadProps.v
theories/MonoAskLimitProps.v
theories/MonoInsertProps.v
theories/AssertInsertProps.v
theories/FrameSpec.v
theories/FrameProofs.v
theories/FrameProps.v
theories/GoneSpec.v
theories/GoneProofs.v
theories/GoneProps.v
theories/ReorderProps.v
theories/IdleSpec.v
theories/IdleProofs.v
theories/IdleProps.v
theories/IdleLoadSpec.v
theories/IdleLoadProofs.v
theories/IdleLoadProps.v
theories/OtherSpec.v
theories/OtherProofs.v
theories/OtherProps.v
theories/ShownSpec.v
theories/ShownProofs.v
theories/ShownProps.v
theories/ShownExcProps.v
theories/ShownRunProps.v
theories/AgreeProps.v
