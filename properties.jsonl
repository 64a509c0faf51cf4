{"id": "C01", "title": "A course is claimed exclusively", "statement": "Starting from an empty claim table, after any sequence of claim attempts, a course whose identity is not on the area's multicountable list has at most one recorded claim, and every later exclusive attempt on it is reported as failed.", "quantifier": "every multicountable table, every finite sequence of claim attempts (course, requirement path, allow_claimed flag)", "why_tests_cant": "The property concerns every possible history of claim attempts; tests exercise a handful of fixed histories.", "anchors": ["dp/context.py:RequirementContext.make_claim", "dp/context.py:RequirementContext._make_multicountable_claim", "dp/claim.py:Claim"]}
{"id": "C02", "title": "Claim attempts have exactly the advertised effect", "statement": "A shared (allow_claimed) attempt always succeeds and records nothing; an attempt on a course nobody has claimed always succeeds and is recorded; a failed attempt records nothing and only happens when the course already has a claim; records of other courses are never touched.", "quantifier": "every claim table, course, path and flag", "why_tests_cant": "State-changing effect on an unbounded table; frame condition over all other courses.", "anchors": ["dp/context.py:RequirementContext.make_claim"]}
{"id": "C03", "title": "Extra claims of a multicountable course only at listed requirements", "statement": "If a claim attempt on an already claimed course succeeds and is recorded, the course is multicountable and the requirement path of the attempt is one of the paths listed for that course in the area specification.", "quantifier": "every reachable claim table and claim attempt", "why_tests_cant": "The property concerns every possible history of claim attempts; tests exercise a handful of fixed histories.", "anchors": ["dp/context.py:RequirementContext._make_multicountable_claim"]}
{"id": "C04", "title": "A listed requirement path uses a multicountable course once", "statement": "After any sequence of exclusive claims, no two recorded claims of the same multicountable course come from the same requirement path.", "quantifier": "every multicountable table and every claim sequence", "why_tests_cant": "The property concerns every possible history of claim attempts; tests exercise a handful of fixed histories.", "anchors": ["dp/context.py:RequirementContext._make_multicountable_claim"]}
{"id": "C05", "title": "The claim table only grows during an audit", "statement": "Auditing any solution never removes or reorders an already recorded claim: each course's old record list is a prefix of the new one.", "quantifier": "every solution tree and every claim table", "why_tests_cant": "Quantifies over all requirement trees.", "anchors": ["dp/context.py:RequirementContext.make_claim", "dp/solution"]}
{"id": "C06", "title": "find_best_solution picks the best candidate", "statement": "The result returned for a rule is the audit of one of the rule's solutions; it is the first solution whose status is done or waived if there is one, otherwise the first solution of maximal rank; it is None exactly when the rule has no solutions; each candidate is audited from an empty claim table; without merge_claims the caller's claim table is unchanged afterwards.", "quantifier": "every list of candidate solutions with arbitrary ranks and statuses, every caller claim table", "why_tests_cant": "Candidate lists are unbounded and ranks arbitrary.", "anchors": ["dp/solve.py:find_best_solution", "dp/context.py:RequirementContext.fresh_claims"]}
{"id": "C07", "title": "Merged claims are those of the selected solution", "statement": "With merge_claims, the claims merged into the caller's table are the claims recorded while auditing the returned (best) solution.", "quantifier": "every list of candidate solutions", "why_tests_cant": "Depends on the order in which candidates of different rank are produced.", "anchors": ["dp/solve.py:find_best_solution"]}
{"id": "C08", "title": "The audit driver reports the best audited solution", "statement": "Without printing options, the message stream of audit() is one estimate, then progress messages, then exactly one final result (or exactly one 'no audits completed' if nothing was audited); the final result is the first audited solution that is done or waived, otherwise the first of maximal rank, and best_i is its 1-based index among generated solutions.", "quantifier": "every sequence of solutions and every argument combination without print_all/print_only", "why_tests_cant": "Unbounded streams with arbitrary rank/status sequences.", "anchors": ["dp/audit.py:audit"]}
{"id": "C09", "title": "Driver options bound the work", "statement": "With stop_after=n at most max(1,n) solutions are audited; with audit_each=k only every k-th generated solution is audited; with print_only only listed indices are audited; no solution after the first done/waived one is audited.", "quantifier": "every solution stream and every option value", "why_tests_cant": "Unbounded streams and options.", "anchors": ["dp/audit.py:audit", "dp/audit.py:Arguments"]}
{"id": "C10", "title": "lazy_product is the Cartesian product", "statement": "For any non-empty list of factories each producing a non-empty finite sequence, lazy_product yields exactly the tuples of itertools.product, in the same order, then stops; with no factory it yields one empty tuple; if any factory produces nothing, it raises instead of yielding nothing.", "quantifier": "every list of finite factory outputs", "why_tests_cant": "Any number of factories of any length; the odometer loop needs an inductive invariant.", "anchors": ["dp/lazy_product.py:lazy_product"]}
{"id": "C11", "title": "ncr is the binomial coefficient", "statement": "ncr(n,r) equals the number of r-element combinations of n items for 0<=r<=n, in particular the number of combinations itertools would generate.", "quantifier": "all integers 0<=r<=n", "why_tests_cant": "Infinite domain; exactness of the integer division.", "anchors": ["dp/ncr.py:ncr"]}
{"id": "C12", "title": "Course-count limits are never exceeded", "statement": "Every transcript variant emitted for a limit set contains, for each limit of the form 'at most k courses', at most k non-forced courses matching the limit's where clause.", "quantifier": "every transcript, every list of limits and forced ids", "why_tests_cant": "All transcripts times all limit sets; overlapping limits interact.", "anchors": ["dp/limit.py:LimitSet.limited_transcripts", "dp/limit.py:LimitSet.check", "dp/limit.py:Limit.iterate"]}
{"id": "C13", "title": "Limits only remove matching, unforced courses", "statement": "Every transcript variant is a duplicate-free selection of the input, sorted by the standard course order, that contains every forced course and every course matched by no limit; no two variants are the same set.", "quantifier": "every transcript with distinct clbids, every limit list and forced ids", "why_tests_cant": "Universally quantified set property over a generator.", "anchors": ["dp/limit.py:LimitSet.limited_transcripts"]}
{"id": "C14", "title": "Limits lose no admissible selection", "statement": "For course-count limits, every choice of limited courses that respects every limit is emitted as a variant.", "quantifier": "every transcript, every list of course-count limits, every admissible sub-selection", "why_tests_cant": "Completeness of an exponential search.", "anchors": ["dp/limit.py:LimitSet.limited_transcripts", "dp/limit.py:Limit.iterate_courses"]}
{"id": "C15", "title": "Credit limits are never exceeded", "statement": "Every transcript variant contains, for each limit of the form 'at most k credits', at most k credits of non-forced courses matching the limit.", "quantifier": "every transcript and limit set", "why_tests_cant": "Overlap of limits is data dependent.", "anchors": ["dp/limit.py:Limit.iterate_credits", "dp/limit.py:LimitSet.check"]}
{"id": "C16", "title": "The limit check does not depend on set order", "statement": "Whether a candidate selection passes the limit check depends only on the set of courses, not on the order in which the set is iterated.", "quantifier": "every selection and every permutation of it", "why_tests_cant": "Set iteration order depends on hash seeds, so a test sees one order per run.", "anchors": ["dp/limit.py:LimitSet.check"]}
{"id": "C17", "title": "Equality against a list means membership", "statement": "Comparing a list-valued field with $eq/$in to a scalar holds exactly when some element equals it; $neq/$nin holds exactly when no element equals it; so they are complementary on values without nulls.", "quantifier": "every operator, scalar and tuple of scalars", "why_tests_cant": "Infinite value domain with coercions.", "anchors": ["dp/op.py:apply_operator", "dp/op.py:apply_operator__half_tuple"]}
{"id": "C18", "title": "Scalar comparisons are coherent", "statement": "On scalars of one comparable kind $lt and $gte are complementary, $lte and $gt are complementary, $lte is $lt or $eq, and $lt is a strict total order.", "quantifier": "every pair/triple of scalars of one kind, including after string coercion", "why_tests_cant": "Infinite value domain.", "anchors": ["dp/op.py:apply_operator"]}
{"id": "C19", "title": "Memoised comparison equals direct comparison", "statement": "The answer of apply_operator does not depend on which comparisons were made before (the memo table is transparent).", "quantifier": "every history of earlier calls and every call", "why_tests_cant": "Depends on the history of calls in the process.", "anchors": ["dp/op.py:apply_operator"]}
{"id": "C20", "title": "Where clauses are boolean combinations", "statement": "A course satisfies an and/or/not/if clause exactly when its subclauses do so under the boolean reading; an if without else is false when its condition is false.", "quantifier": "every predicate tree and every course", "why_tests_cant": "Unbounded trees.", "anchors": ["dp/predicate_clause.py:PredicateCompoundAnd.apply", "dp/predicate_clause.py:PredicateCompoundOr.apply", "dp/predicate_clause.py:PredicateNot.apply", "dp/predicate_clause.py:ConditionalPredicate.apply"]}
{"id": "C21", "title": "Grades are totally ordered, consistently with points", "statement": "The grade comparison is a total order; between letter grades a higher grade never has fewer grade points; every non-letter code sorts below F.", "quantifier": "every pair and triple of grade codes", "why_tests_cant": "Finite but only sampled by tests.", "anchors": ["dp/data/course_enums.py:GradeCode", "dp/data/course_enums.py:grade_code_ordering", "dp/data/course_enums.py:grade_code_to_points"]}
{"id": "C22", "title": "The covid grade substitution only applies to covid-term courses", "statement": "A grade clause on a course outside the covid term compares the transcript grade with the normal threshold; in the covid term it compares the internal S/U grade when the grade is S and one is recorded, with the covid threshold if one is given and otherwise the normal one.", "quantifier": "every course and every grade clause", "why_tests_cant": "Cross product of flags, grades and thresholds.", "anchors": ["dp/data/course.py:apply_predicate__grade", "dp/predicate_clause.py:Predicate.compare_in_covid"]}
{"id": "C23", "title": "GPA is well defined", "statement": "The grade point average depends only on the multiset of in-GPA courses, ignores the others, is 0.00 when there are no in-GPA credits, is the truncation to two decimals of points over credits, and lies between 0 and 4 when every course earns between 0 and 4 points per credit.", "quantifier": "every finite collection of courses", "why_tests_cant": "Unbounded sums and division.", "anchors": ["dp/lib.py:grade_point_average", "dp/data/course.py:load_course"]}
{"id": "C24", "title": "The loaded transcript is clean", "statement": "The loaded transcript has pairwise distinct class ids, is sorted by the standard order, contains no audited, repeated, withdrawn, unsuccessful or failed course, keeps every other row, and the with-failed transcript contains additionally exactly the F rows.", "quantifier": "every list of raw transcript rows", "why_tests_cant": "Arbitrary row lists including repeated ids.", "anchors": ["dp/data/student.py:load_transcript", "dp/data/student.py:Student.load", "dp/data/course.py:CourseInstance.sort_order"]}
{"id": "C25", "title": "Course overrides only affect the named course", "statement": "Credit and subject overrides change only the course with the given class id; an explicit credit override wins over the area's default by course name; with several overrides of one kind the last wins.", "quantifier": "every row and every override list", "why_tests_cant": "All override lists and rows.", "anchors": ["dp/data/course.py:load_course"]}
{"id": "C26", "title": "Assertion status reflects the comparison", "statement": "For a course assertion: the status is passing exactly when the comparison holds on all given courses (in-progress included); it is done when the comparison also holds without the in-progress courses or treat_in_progress_as_pass is set; otherwise it is pending-current or pending-registered according to whether a contributing course is in a future term.", "quantifier": "every assertion and every list of courses whose in-progress courses are current, future or incomplete", "why_tests_cant": "All course lists and thresholds.", "anchors": ["dp/assertion_clause.py:evaluate_with_courses"]}
{"id": "C27", "title": "Count and sum clauses compute set cardinalities and sums", "statement": "count(courses), count(distinct_courses), count(terms), count(years), count(subjects) are the number of distinct values among the given courses, sum(credits) the total of credits; all are independent of the order of the courses, and counts never exceed the number of courses.", "quantifier": "every list of courses", "why_tests_cant": "Unbounded lists and permutations.", "anchors": ["dp/apply_clause.py"]}
{"id": "C28", "title": "The subset sizes tried cover every useful size", "statement": "For a count assertion over n candidate courses, every tried subset size is at most n, at least one size is tried, and every size between 0 and n that satisfies the comparison is tried.", "quantifier": "every operator, expected value and n", "why_tests_cant": "All integers and operators.", "anchors": ["dp/assertion_clause.py:input_size_range", "dp/rule/query.py:iterate_item_set"]}
{"id": "C29", "title": "Query enumeration is complete for count assertions", "statement": "If some sub-selection of the candidate courses has a size that satisfies the largest simple count assertion, then that sub-selection is among the enumerated outputs (for $eq, $gte, $lt, $lte, $neq).", "quantifier": "every candidate list, assertion and sub-selection", "why_tests_cant": "Completeness of an exponential search.", "anchors": ["dp/rule/query.py:iterate_item_set", "dp/rule/query.py:count_shortcut", "dp/rule/query.py:sum_shortcut"]}
{"id": "C30", "title": "Value changes and value exceptions are applied in order", "statement": "The threshold of an assertion is the specified one changed by the applicable conditional changes in order, unless a value exception exists at its path, which replaces it; a waive exception at its path makes it waived whatever the data.", "quantifier": "every list of changes, every exception list, every data", "why_tests_cant": "Unbounded change lists.", "anchors": ["dp/assertion_clause.py:load_single_assertion", "dp/assertion_clause.py:Assertion.audit_and_resolve"]}
{"id": "C31", "title": "A conditional assertion whose condition is false is neutral", "statement": "When the condition of a $if/$when assertion is false and there is no alternative, the assertion neither blocks nor completes the rule by itself.", "quantifier": "every conditional assertion and data", "why_tests_cant": "Depends on data-dependent conditions.", "anchors": ["dp/assertion_clause.py:ConditionalAssertion", "dp/assertion_clause.py:DynamicConditionalAssertion"]}
{"id": "C32", "title": "Rank never exceeds max rank", "statement": "For every audited requirement tree 0 <= rank <= max_rank at every node.", "quantifier": "every requirement tree with non-negative assertion values", "why_tests_cant": "Unbounded trees; special cases for two-of-two and at-most-one counts.", "anchors": ["dp/base/count.py:BaseCountRule.rank", "dp/base/query.py:BaseQueryRule.rank", "dp/base/requirement.py:BaseRequirementRule.rank", "dp/base/course.py:BaseCourseRule.rank", "dp/assertion_clause.py:Assertion.rank"]}
{"id": "C33", "title": "A count requirement passes only if enough children pass", "statement": "If a non-waived count node has a passing status, at least count children are passing and every audit clause is passing; if it is done or waived, moreover no passing child or audit clause is merely in progress.", "quantifier": "every count node with arbitrary child and clause statuses", "why_tests_cant": "All multisets of statuses.", "anchors": ["dp/base/count.py:BaseCountRule.status"]}
{"id": "C34", "title": "A completed requirement tree is really complete", "statement": "If a tree's status is done or waived then it has a witness: reading the tree top-down, each count node has enough done/waived children and all its clauses are done/waived, each course leaf has a finished matching course or is waived or optional, and so on.", "quantifier": "every result tree", "why_tests_cant": "Unbounded trees.", "anchors": ["dp/base/count.py", "dp/base/query.py", "dp/base/course.py", "dp/base/requirement.py", "dp/base/conditional.py", "dp/base/proficiency.py"]}
{"id": "C35", "title": "Waived nodes count as complete", "statement": "A node waived by exception has a done/waived status and full rank whatever its children are.", "quantifier": "every rule kind and every subtree", "why_tests_cant": "All subtrees.", "anchors": ["dp/base/bases.py", "dp/base/count.py", "dp/base/query.py", "dp/base/requirement.py"]}
{"id": "C36", "title": "A failed invariant is never masked", "statement": "A count or query node that is not waived and has a failed-invariant child or clause is itself failed-invariant, hence never passing.", "quantifier": "every node and multiset of child statuses", "why_tests_cant": "All multisets of statuses.", "anchors": ["dp/base/count.py:BaseCountRule.status", "dp/base/query.py:BaseQueryRule.status"]}
{"id": "C37", "title": "Result paths are totally ordered", "statement": "The path comparison used to order children is a strict total order on well-formed paths (numeric components written canonically), so the order of children in the output does not depend on the order in which they were produced.", "quantifier": "every list of well-formed paths", "why_tests_cant": "All paths; sorting correctness requires transitivity.", "anchors": ["dp/base/bases.py:compare_path_tuples", "dp/base/bases.py:compare_path_tuples__lt"]}
{"id": "C38", "title": "Independently solved children do not compete", "statement": "Every child that has potential is classified exactly once; a child classified as independent is not declared never-disjoint and shares no matching item with any other child unless both are declared always-disjoint, or it is the only child.", "quantifier": "every list of children and matching relation", "why_tests_cant": "All families of children.", "anchors": ["dp/rule/count.py:CountRule.find_independent_children"]}
{"id": "C39", "title": "Every count solution contains every child exactly once", "statement": "Each solution of a count rule lists each child of the rule exactly once (as a solution, as a result, or unsolved), ordered by path; the number of solved children is at least the requested count when enough children have potential.", "quantifier": "every count rule and context", "why_tests_cant": "Exponential enumeration.", "anchors": ["dp/rule/count.py:CountRule.solutions", "dp/rule/count.py:CountRule.make_combinations"]}
{"id": "C40", "title": "Every rule yields at least one solution", "statement": "Whatever the transcript, each rule yields at least one solution and enumerating solutions never raises.", "quantifier": "every rule tree and context", "why_tests_cant": "All rule trees.", "anchors": ["dp/rule"]}
{"id": "C41", "title": "Query outputs respect the filter", "statement": "Every course in the output of a query solution satisfies the where clause or was inserted by exception; no excluded (required elsewhere or blocked) course is in it; every inserted course admitted by the limits is in it.", "quantifier": "every query rule, transcript and exception list", "why_tests_cant": "All transcripts.", "anchors": ["dp/rule/query.py:QueryRule.get_data", "dp/rule/query.py:QueryRule.get_filtered_data", "dp/rule/query.py:QueryRule.solutions"]}
{"id": "C42", "title": "Course rules only match eligible courses", "statement": "Every course offered by a course rule matches all the rule's identifying fields, meets the minimum grade (or is in progress), has the required grade option, and is not excluded - unless it was inserted by exception.", "quantifier": "every course rule and transcript", "why_tests_cant": "All transcripts.", "anchors": ["dp/rule/course.py:CourseRule.solutions", "dp/data/student.py:course_filter"]}
{"id": "C43", "title": "Blocked courses stay out", "statement": "After a block exception for a path, no solution of the rule at that path offers the blocked course.", "quantifier": "every rule tree, path, class id", "why_tests_cant": "All trees.", "anchors": ["dp/rule/course.py:CourseRule.apply_block_exception", "dp/rule/query.py:QueryRule.apply_block_exception"]}
{"id": "C44", "title": "from_claimed courses must already be claimed", "statement": "A course rule marked from_claimed is only satisfied by a course already claimed elsewhere at the time it is audited.", "quantifier": "every course rule and claim table", "why_tests_cant": "Depends on the audit history.", "anchors": ["dp/solution/course.py:CourseSolution.from_rule", "dp/solution/course.py:CourseSolution.audit"]}
{"id": "C45", "title": "Exception lookups are exact and cache-transparent", "statement": "Insert, block, value and waive exceptions are found exactly at their own path in the given order; the 'exists beneath' test equals existence of an exception whose path extends the queried one, whatever was queried before.", "quantifier": "every exception list, path and query history", "why_tests_cant": "The cache makes answers history dependent in principle.", "anchors": ["dp/context.py:RequirementContext.has_exception_beneath", "dp/context.py:RequirementContext.get_insert_exceptions", "dp/context.py:RequirementContext.get_waive_exception"]}
{"id": "C46", "title": "Path migrations rewrite exactly the prefix", "statement": "A migration changes an exception path only when its from-path is a prefix, replaces exactly this prefix and keeps the rest; migrations are applied in order.", "quantifier": "every path and list of migrations", "why_tests_cant": "Unbounded lists.", "anchors": ["dp/exception.py:load_exception"]}
{"id": "C47", "title": "No double counting in a result tree", "statement": "In the result of auditing any solution tree from an empty claim table, a non-multicountable course is reported as claimed by at most one rule among the rules that claim exclusively.", "quantifier": "every solution tree", "why_tests_cant": "Unbounded trees.", "anchors": ["dp/solution", "dp/result", "dp/context.py:RequirementContext.make_claim"]}
{"id": "C48", "title": "GPA-excluded requirements contribute no courses", "statement": "Courses claimed only beneath requirements marked in_gpa: false are not part of the area GPA; all others are.", "quantifier": "every result tree", "why_tests_cant": "Unbounded trees.", "anchors": ["dp/base/requirement.py:BaseRequirementRule.claims_for_gpa", "dp/base/count.py", "dp/area.py:AreaResult.gpa"]}
{"id": "C49", "title": "Majors must satisfy the common requirements", "statement": "For an area of kind major, the reported status is passing only if the common-requirements block is passing.", "quantifier": "every result tree of a major whose top-level count counts all its children, and every common block", "why_tests_cant": "All trees.", "anchors": ["dp/area.py:AreaSolution.audit", "dp/area.py:AreaSolution.audit_common_major_requirements"]}
{"id": "C50", "title": "Solutions are audited independently", "statement": "The result of auditing the n-th solution does not depend on audits of earlier solutions.", "quantifier": "every area, transcript, n", "why_tests_cant": "Depends on the schedule of generation and auditing.", "anchors": ["dp/area.py:AreaOfStudy.solutions"]}
{"id": "C51", "title": "At most one active result per student and area", "statement": "After any sequence of saved audits (including link-only ones) at most one stored result per student and area is active, and it is the most recently saved non-link-only result.", "quantifier": "every sequence of saves from a state satisfying it", "why_tests_cant": "Unbounded histories.", "anchors": ["dp/server/audit.py:audit"]}
{"id": "C52", "title": "Queue items survive crashes", "statement": "If the worker crashes or the connection drops at any point before COMMIT, the queue and results are as after the last COMMIT: the item being processed is back in the queue and no partial result is visible; an item disappears only together with its saved result, with a logged failure, or with an unknown area.", "quantifier": "every queue, every crash point, every outcome of audits", "why_tests_cant": "All interleavings and crash points.", "anchors": ["dp/server/worker.py:process_queue", "dp/server/audit.py:audit"]}
{"id": "C53", "title": "The queue is served by priority, then age", "statement": "Each item taken is, among visible unlocked items, one of highest priority and, among these, of earliest timestamp; with no new arrivals and no crashes every item is taken exactly once.", "quantifier": "every queue", "why_tests_cant": "Unbounded queues.", "anchors": ["dp/server/worker.py:process_queue"]}
{"id": "C54", "title": "No lost wake-up", "statement": "A queue item inserted (and notified) at any time is eventually processed without a further notification.", "quantifier": "every interleaving of inserts with the worker start-up and loop", "why_tests_cant": "Scheduling dependent.", "anchors": ["dp/server/worker.py:worker"]}
{"id": "C55", "title": "Stored revisions are strictly increasing", "statement": "Each newly saved result of a student and area has a revision number greater than every revision used for it before.", "quantifier": "every sequence of saves", "why_tests_cant": "Unbounded histories.", "anchors": ["dp/server/audit.py:audit"]}
{"id": "C56", "title": "Expiry keeps the newest result", "statement": "Clearing expired results never removes the most recent result of a student, catalog and area.", "quantifier": "every results table", "why_tests_cant": "All tables.", "anchors": ["dp/server/clear_expired.py"]}
{"id": "C57", "title": "Batch queueing skips queued and blocked items", "statement": "The batch command only inserts (student, area) pairs that are neither already queued nor blocked, and reports the number of rows inserted.", "quantifier": "every set of candidates, queued and blocked pairs", "why_tests_cant": "All sets.", "anchors": ["dp/server/batch.py"]}
{"id": "C58", "title": "The newest applicable area file is used", "statement": "find_area returns, among the catalog folders not later than the requested year that contain the area, the latest one, and None exactly when there is none.", "quantifier": "every folder listing with four-digit years", "why_tests_cant": "All listings.", "anchors": ["dp/run.py:find_area"]}
{"id": "C59", "title": "Durations decompose exactly", "statement": "parse_ms splits a non-negative duration into components within their ranges (hours<24, minutes<60, seconds<60, milliseconds<1000) whose weighted sum is the duration's whole milliseconds.", "quantifier": "every non-negative duration below 2*10^27 (beyond that decimal division rounds)", "why_tests_cant": "Infinite domain.", "anchors": ["dp/ms.py:parse_ms"]}
{"id": "C60", "title": "Conditional requirements follow their condition", "statement": "Status, rank, claims and solutions of a conditional requirement are those of the branch selected by its condition.", "quantifier": "every conditional node and branches", "why_tests_cant": "All trees.", "anchors": ["dp/base/conditional.py", "dp/rule/conditional.py"]}
{"id": "C61", "title": "keyed_claims loses nothing", "statement": "The claims map of an area result lists, per class id, exactly the successful claims of the tree with that id.", "quantifier": "every result tree", "why_tests_cant": "Unbounded trees.", "anchors": ["dp/area.py:AreaResult.keyed_claims"]}
{"id": "C62", "title": "Condition expressions evaluate as boolean formulas", "statement": "Loading and evaluating a condition expression gives the boolean value of the formula; evaluation is idempotent.", "quantifier": "every expression tree and context", "why_tests_cant": "Unbounded trees.", "anchors": ["dp/conditional_expression.py"]}
{"id": "C63", "title": "Where clauses load to what the specification says", "statement": "In the expected value of a clause each dollar-name is replaced by the student's constant (flattened into lists) and any other dollar-name is an error; the loaded clause keeps the given key and its only operator; unknown keys, several operators and null expectations are rejected.", "quantifier": "every clause dictionary, data type and set of constants", "why_tests_cant": "Unbounded dictionaries and values.", "anchors": ["dp/predicate_clause.py:load_single_predicate", "dp/predicate_clause.py:load_expected_value", "dp/constants.py:Constants.get_by_name"]}
{"id": "C64", "title": "Limits always leave some transcript", "statement": "For every transcript and every set of limits with positive maxima, at least one transcript variant is emitted, so the area is audited at least once.", "quantifier": "all transcripts, limit lists, forced courses and set iteration orders", "why_tests_cant": "Whether overlapping limits can exclude every candidate depends on the combination of limits and courses, which tests only sample.", "anchors": ["dp/limit.py:LimitSet.limited_transcripts", "dp/limit.py:Limit.iterate_credits"]}
{"id": "C65", "title": "In-progress courses are placed in a term", "statement": "A course whose grade says in progress or incomplete is, given a current term, either of this term or earlier, or of a future term, never both and never neither; finished courses and loads without a current term are neither. The covid exception applies exactly to term 20193.", "quantifier": "every row and current term", "why_tests_cant": "String comparison of year and term and the handling of a missing current term must be right for all values.", "anchors": ["dp/data/course.py:load_course"]}
{"id": "C66", "title": "What-if-dropped areas are invisible", "statement": "An area of study marked as dropped in a what-if is not part of the student's areas, unless it is the audited area; every other area is kept.", "quantifier": "every list of areas and audited code", "why_tests_cant": "Depends on all combinations of statuses and codes.", "anchors": ["dp/data/student.py:Student.load"]}
{"id": "C67", "title": "An audited assertion measures exactly the filtered, inserted and unblocked courses", "statement": "Auditing a course assertion evaluates the given courses that pass its where clause plus the courses inserted by exceptions at its path minus the courses blocked at its path; the recorded value, courses and status are those of exactly that list, and the definition (key, operator, threshold, flags) is unchanged.", "quantifier": "every context, exception list, course list and assertion", "why_tests_cant": "Unbounded course and exception lists.", "anchors": ["dp/assertion_clause.py:Assertion.audit_and_resolve"]}
{"id": "C68", "title": "Query estimates bound the search", "statement": "The estimate of a course query is at least the number of solutions it yields, and equal to it when no assertion sums credits and the deciding count is a $gte or $eq.", "quantifier": "every course query, transcript, exception list and iteration order", "why_tests_cant": "The number of solutions is exponential and depends on all inputs.", "anchors": ["dp/rule/query.py:QueryRule.estimate", "dp/rule/query.py:estimate_item_set", "dp/ncr.py"]}
{"id": "C69", "title": "Query audits measure what they were granted", "statement": "Auditing a claiming query attempts exactly one claim per offered course at the query's path; granted and denied claims are reported separately; assertions see exactly the granted courses; queries that do not claim leave the claim table unchanged.", "quantifier": "every query solution, context and claim table", "why_tests_cant": "All claim tables.", "anchors": ["dp/solution/query.py:QuerySolution.audit", "dp/solution/query.py:collect_courses", "dp/solution/query.py:collect_claimed_courses"]}
{"id": "C70", "title": "A query's status is the conjunction of its assertions", "statement": "A query that is not waived is passing exactly when every assertion is passing, complete exactly when every assertion is complete, failed exactly when some assertion failed; every other status is determined likewise.", "quantifier": "every query result", "why_tests_cant": "All multisets of statuses.", "anchors": ["dp/base/query.py:BaseQueryRule.status"]}
{"id": "C71", "title": "Queries are loaded as written", "statement": "A loaded query has the source, claim mode, limits, where clause and numbered assertions of its definition and is waived exactly when an override exists at its path.", "quantifier": "every query definition and exception list", "why_tests_cant": "All definitions.", "anchors": ["dp/rule/query.py:QueryRule.load"]}
{"id": "C72", "title": "Auditing a course makes exactly one claim", "statement": "Auditing a course solution attempts exactly one claim, for the chosen course at the rule's own path, shared when the rule allows claimed courses or the insertion was forced, and reports its outcome; without a course or when waived it attempts none and leaves the claim table alone.", "quantifier": "every course solution and claim table", "why_tests_cant": "All claim tables.", "anchors": ["dp/solution/course.py:CourseSolution.audit"]}
{"id": "C73", "title": "Course status follows the claimed course", "statement": "The status of a course result is waived exactly when it is waived or inserted and its claim was not denied; otherwise it is decided by the claimed course: finished, in progress now, or registered; without a usable course an optional rule counts as waived and any other is empty. The rank is between 0 and 1.", "quantifier": "every course result", "why_tests_cant": "All combinations of flags and courses.", "anchors": ["dp/base/course.py:BaseCourseRule.status", "dp/base/course.py:BaseCourseRule.rank", "dp/result/course.py"]}
{"id": "C74", "title": "A course is reserved only if it is the only match", "statement": "get_required_courses returns a course exactly when it is the single course the rule can find (insertions at its path and blocked courses aside) and the rule is not from_claimed.", "quantifier": "every course rule and transcript", "why_tests_cant": "All transcripts.", "anchors": ["dp/rule/course.py:CourseRule.get_required_courses"]}
{"id": "C75", "title": "Loading a course rule keeps what was written", "statement": "A loaded course rule has every field of its specification, an allow_claimed flag when it is from_claimed, a term whenever it has a year, the grade points of its letter grade, at least one identifying field, and a path ending in the name its fields spell.", "quantifier": "every course specification", "why_tests_cant": "All specifications.", "anchors": ["dp/rule/course.py:CourseRule.load"]}
{"id": "C76", "title": "A course rule has potential exactly when something could satisfy it", "statement": "has_potential of a course rule is true exactly when it is waived automatically, an exception is recorded at or beneath its path, or the transcript has a course it finds.", "quantifier": "every course rule, transcript and exceptions", "why_tests_cant": "All transcripts.", "anchors": ["dp/rule/course.py:CourseRule._has_potential"]}
{"id": "C77", "title": "Status and rank of a tree are fully determined by its parts", "statement": "The status of every requirement tree is the one described by a small set of clauses (waivers, approvals, the count's verdict, the branch in force, a held proficiency), and its rank and maximal rank are those described by similar clauses (sums over children, the greatest child where at most one counts, one extra point for a passing requirement).", "quantifier": "for all trees, as rules, solutions or results", "why_tests_cant": "trees are unbounded; tests sample a few", "anchors": ["dp/base/count.py:BaseCountRule.status", "dp/base/count.py:BaseCountRule.rank", "dp/base/requirement.py:BaseRequirementRule.rank", "dp/base/conditional.py", "dp/base/proficiency.py"]}
{"id": "C78", "title": "The displayed status of a count's audit clauses", "statement": "The audit status of a count requirement is Waived if the requirement is waived, the common status if all clauses agree, and otherwise the conjunction of the clauses' statuses.", "quantifier": "for all count requirements", "why_tests_cant": "all multisets of statuses", "anchors": ["dp/base/count.py:BaseCountRule.audit_status"]}
{"id": "C79", "title": "Required courses are reserved exactly where everything is required", "statement": "get_required_courses of a tree lists exactly the courses that are the only match of a course rule reached through 'all of' counts, requirements and branches in force; excluding courses keeps them out of everything every course query of the tree offers and leaves the course rules alone.", "quantifier": "every requirement tree, transcript and exception list", "why_tests_cant": "All trees and transcripts.", "anchors": ["dp/rule/count.py:CountRule.get_required_courses", "dp/rule/count.py:CountRule.exclude_required_courses", "dp/rule/requirement.py", "dp/rule/conditional.py"]}
{"id": "C80", "title": "all_matches lists what could be used", "statement": "all_matches of a tree lists exactly the items some rule of the tree could use: courses found or inserted and not excluded, query items that pass the where clause or are inserted, through the branch in force of each conditional.", "quantifier": "every requirement tree, transcript and exception list", "why_tests_cant": "All trees and transcripts.", "anchors": ["dp/rule/count.py:CountRule.all_matches", "dp/rule/course.py:CourseRule.all_matches", "dp/rule/query.py:QueryRule.all_matches"]}
{"id": "C81", "title": "A tree has potential exactly when something could help it", "statement": "When has_potential of a tree answers, the answer is yes exactly when an exception is recorded at or beneath a count, requirement, query or course rule in it, a course rule finds a course or is waived, a query has an item, reads claimed courses or has an assertion met by nothing, or there is a proficiency rule, reached through the branches in force and not through department-audited requirements.", "quantifier": "every requirement tree, transcript and exception list", "why_tests_cant": "All trees and transcripts.", "anchors": ["dp/rule/count.py:CountRule.has_potential", "dp/rule/requirement.py:RequirementRule.has_potential", "dp/rule/query.py:QueryRule.has_potential"]}
{"id": "C82", "title": "An audit keeps the shape of the solution", "statement": "The result of auditing a solution is the same tree: every solved child is audited exactly once in its place, children that were not selected and parts beneath a waived node stay as they were, and the audit clauses of a count rule are measured on the distinct courses successfully claimed by each child, child by child.", "quantifier": "every solution tree, claim table and context", "why_tests_cant": "The shape of the result depends on the whole tree and on which children were selected; tests only see a few shapes.", "anchors": ["dp/solution/count.py:CountSolution.audit", "dp/solution/requirement.py:RequirementSolution.audit", "dp/solution/conditional.py", "dp/solution/proficiency.py"]}
{"id": "C83", "title": "Solutions at the top combine best results and solutions", "statement": "With audit clauses absent, a solution of the top-level requirement holds, for every child, its best result if the child is independent of the others, one of its solutions if it was chosen, itself otherwise; the number chosen fits the count; in whatever order sets are visited.", "quantifier": "every top-level count rule, context and iteration order", "why_tests_cant": "Unbounded families of children and set iteration orders.", "anchors": ["dp/rule/count.py:CountRule.solutions", "dp/rule/count.py:CountRule.solve_independent_children"]}
{"id": "C84", "title": "Solving independent children apart is safe", "statement": "The claims of an audited solution are among the matches of its rule, so the claims of a child solved on its own never collide with those of a sibling, however that one is solved.", "quantifier": "every pair of children, solutions and claim tables", "why_tests_cant": "Quantifies over all pairs of solutions and audit histories.", "anchors": ["dp/rule/count.py:CountRule.find_independent_children", "dp/rule/course.py:CourseRule._all_matches", "dp/rule/query.py:QueryRule.all_matches"]}
{"id": "C85", "title": "Queries over claimed courses see the rest of the area", "statement": "A child that contains a query over the claimed courses is not solved on its own before the other children claimed their courses.", "quantifier": "every family of children", "why_tests_cant": "All nestings of rules.", "anchors": ["dp/rule/count.py:CountRule.find_independent_children", "dp/rule/query.py:QueryRule.is_never_disjoint", "dp/rule/requirement.py:RequirementRule.is_never_disjoint"]}
{"id": "C86", "title": "print_all prints every audited result", "statement": "With print_all every solution that is audited has its result reported.", "quantifier": "every stream of solutions and every option value", "why_tests_cant": "Depends on the order in which statuses appear in the stream.", "anchors": ["dp/audit.py:audit"]}
{"id": "C87", "title": "Solutions of a transcript are judged from the same claims", "statement": "Every solution offered for the same limited transcript is audited against the same starting table of claims.", "quantifier": "every area, student, exceptions and iteration order", "why_tests_cant": "Only areas with several solutions and independently solved children show a difference.", "anchors": ["dp/area.py:AreaOfStudy.solutions", "dp/rule/count.py:CountRule.solutions"]}
{"id": "C88", "title": "A passing major meets the common block", "statement": "A major that is reported as passing and is not waived has a passing common-requirements block, whatever its top rule asks for.", "quantifier": "every major and solution", "why_tests_cant": "All trees.", "anchors": ["dp/area.py:AreaSolution.audit"]}
{"id": "C89", "title": "Status and average of an area", "statement": "The status of an area is that of its tree, or waived if the tree is; the average of a degree covers all courses including failed ones, that of any other area the distinct courses claimed by requirements that count for the average.", "quantifier": "every area result", "why_tests_cant": "All trees and all sets of courses.", "anchors": ["dp/area.py:AreaResult.status", "dp/area.py:AreaResult.gpa"]}
{"id": "C90", "title": "No class is used twice in the result of an area", "statement": "In the result of auditing any solution of an area, a class is claimed at most once by rules that do not allow it to be used again. The only rules that do are those with allow_claimed, queries over claimed courses or that do not claim, and those an exception forces the class into. Children of the top rule that are solved apart keep to this too.", "quantifier": "for all areas, students, exceptions, set iteration orders, solutions of the area and classes that are not multicountable", "why_tests_cant": "The guarantee spans limits, enumeration, the choice of the children solved apart and the claim table; a test fixes one area and one transcript.", "anchors": ["dp/area.py:167-294", "dp/rule/count.py:227-470", "dp/context.py:215-330", "dp/solve.py"]}
{"id": "C91", "title": "What a rule of a specification is loaded as", "statement": "A rule is loaded as the tree its specification describes: class chosen by its keys, templates expanded, references resolved to the requirements in scope, hidden conditionals left out but keeping their number, the count asked for computed from the children; anything else is refused.", "quantifier": "every specification, context, set of templates and requirements in scope", "why_tests_cant": "Specifications are arbitrarily nested.", "anchors": ["dp/load_rule.py:load_rule", "dp/rule/count.py:CountRule.load", "dp/rule/requirement.py:RequirementRule.load", "dp/rule/conditional.py:ConditionalRule.load", "dp/rule/proficiency.py:ProficiencyRule.load", "dp/load_rule.py:expand_template"]}
{"id": "C92", "title": "Paths identify the parts of a loaded area", "statement": "No two parts of a loaded tree have the same path and all lie below the path the rule was loaded at, so an exception or claim names one place.", "quantifier": "every specification whose emphases have different names", "why_tests_cant": "All nestings and references, including a requirement used twice.", "anchors": ["dp/rule/count.py:CountRule.load", "dp/rule/requirement.py:RequirementRule.load", "dp/rule/course.py:CourseRule.load"]}
{"id": "C93", "title": "Nothing has happened to a loaded tree", "statement": "Every part of a loaded tree is a rule, is not waived (conditionals excepted, which look up their exception when loaded), claims nothing and keeps no class out; a rule that takes claimed courses may share them.", "quantifier": "every specification and context", "why_tests_cant": "All nestings.", "anchors": ["dp/load_rule.py:load_rule", "dp/rule/*.py:load"]}
{"id": "C94", "title": "A count does not ask for more than there is", "statement": "Every count of a loaded tree asks for at least zero and at most as many children as it has, unless it is an at-most rule.", "quantifier": "every specification without $hide-when-false", "why_tests_cant": "All nestings; holds only as hidden rules are excluded.", "anchors": ["dp/rule/count.py:CountRule.load"]}
{"id": "C95", "title": "Inserted courses become children of the count", "statement": "Each course inserted by an exception at the path of a count is one of its last children, in order, names the class, is marked as inserted, and may be used again exactly if the exception forces it.", "quantifier": "every specification, context and exception", "why_tests_cant": "All nestings and lists of exceptions.", "anchors": ["dp/rule/count.py:CountRule.load"]}
{"id": "C96", "title": "Requirements in a requirement are all used", "statement": "A requirement that declares requirements its result does not use is refused, a reference stands for the requirement in scope, and an unknown reference is refused.", "quantifier": "every requirement and context", "why_tests_cant": "All nestings.", "anchors": ["dp/rule/requirement.py:RequirementRule.load", "dp/load_rule.py:load_rule"]}
{"id": "C97", "title": "The common rules ask for what they say", "statement": "Of the courses claimed for a major, those with a counted grade of C or better (C- in the covid term) or in progress, and with credit, must add up to six credits; at most one course of exactly one credit may be taken S/U, none at all for a B.M.; unless the degree is B.M., the courses outside the subject of the major must add up to 21 credits (18 in full courses for the double major in the arts).", "quantifier": "every context, student, area code and department code", "why_tests_cant": "All transcripts and grades.", "anchors": ["dp/area.py:prepare_common_rules"]}
{"id": "C98", "title": "The common block of a major passes exactly if the demands are met", "statement": "The block added to the result of a major passes exactly if the claimed courses meet the first two demands and, unless the degree is B.M., the department is known and all courses of the student meet the third.", "quantifier": "every area, context and result", "why_tests_cant": "All results and transcripts.", "anchors": ["dp/area.py:AreaSolution.audit_common_major_requirements", "dp/area.py:prepare_common_rules"]}
{"id": "C99", "title": "An area is loaded exactly as its specification says", "statement": "Loading gives the rule as written, with what the declared emphases add, the required classes kept out of all queries, the blocked classes kept out of the rules they are blocked at, the department of the student's pointer, the multicountable paths and the common rules; it is refused in all other cases, also if an undeclared emphasis is not valid on its own.", "quantifier": "every specification, student, list of exceptions and constants", "why_tests_cant": "All specifications and emphases.", "anchors": ["dp/area.py:AreaOfStudy.load", "dp/rule/count.py:CountRule.load"]}
{"id": "C100", "title": "A loaded area is ready for audit", "statement": "The tree of a loaded area holds rules not audited yet, and no two parts have the same path, provided the names of declared emphases differ (and none continues another with an arrow).", "quantifier": "every specification, student and list of exceptions", "why_tests_cant": "All specifications.", "anchors": ["dp/area.py:AreaOfStudy.load", "dp/load_rule.py"]}
{"id": "C101", "title": "From specification to result, a class is used once", "statement": "In the result of any solution of a loaded area, rules that do not share classes claim a class at most once, unless it is multicountable or children at the top are declared disjoint.", "quantifier": "every specification, student, list of exceptions, iteration order and solution", "why_tests_cant": "Every interleaving of limits, solutions and claims.", "anchors": ["dp/area.py:AreaOfStudy", "dp/claim.py:ClaimAttempt", "dp/rule/count.py"]}
{"id": "C102", "title": "Blocked and required classes are not claimed elsewhere", "statement": "In the result of a loaded area, no class is claimed at a rule where an exception blocks it, except by the course of a proficiency or a query over claimed courses; and a class that a course rule requires is claimed by course rules only, or by queries over claimed courses.", "quantifier": "every specification, student, list of exceptions, iteration order and solution", "why_tests_cant": "All trees, exceptions and solutions.", "anchors": ["dp/area.py:AreaOfStudy.load", "dp/rule/course.py:CourseRule.apply_block_exception", "dp/rule/query.py:QueryRule.exclude_required_courses"]}
{"id": "C103", "title": "An inserted class is a child of the count it is inserted at", "statement": "An exception that inserts a class at the path of a count makes a course rule for this class a child of the count in the loaded area.", "quantifier": "every specification, student and list of exceptions", "why_tests_cant": "All paths and trees.", "anchors": ["dp/rule/count.py:CountRule.load"]}
{"id": "C104", "title": "A declared emphasis is asked for", "statement": "If the rule at the top asks for all of a list, the loaded tree asks for all its children, the requirements of each declared emphasis are among them, and the area passes only if each child has a passing result.", "quantifier": "every specification, student, list of exceptions and solution", "why_tests_cant": "All specifications and solutions.", "anchors": ["dp/rule/count.py:CountRule.load", "dp/area.py:AreaSolution.audit"]}
{"id": "C105", "title": "A passing major meets the common demands", "statement": "A major whose top rule asks for all of a list, with no exceptions for the common block and no waiver at the top, passes only if the courses it claims make six credits at C or better, at most one is taken S/U (none for a B.M.), and, unless a B.M., enough credits are from outside the department.", "quantifier": "every specification, student, list of exceptions and solution", "why_tests_cant": "All transcripts and specifications.", "anchors": ["dp/area.py:AreaSolution.audit", "dp/area.py:prepare_common_rules"]}
{"id": "C106", "title": "Undeclared emphases change nothing", "statement": "If all emphases are valid, the area is loaded as if only the declared ones were written; an invalid emphasis makes the area unusable for everybody. A valid emphasis can be declared.", "quantifier": "every specification and student", "why_tests_cant": "All specifications.", "anchors": ["dp/area.py:AreaOfStudy.load", "dp/rule/count.py:CountRule.load"]}
{"id": "C107", "title": "Registrar codes are read as they stand", "statement": "Every grade, grade option, sub type, course type and transcript code of a transcript row is read as the member it denotes and every other text is refused with a ValueError; names of grades, types, statuses and kinds are distinct; CH/BI 125, 126, 127 and 227, and only they, are recognised as integrated courses; a course type decides whether a course sorts with the courses taken at the college or after them.", "quantifier": "for all texts, grades, types and course identities", "why_tests_cant": "There are infinitely many texts to refuse, and a table entry that is mistyped or shadowed by another is only met by a test naming exactly that code.", "anchors": ["dp/data/course_enums.py:6-118", "dp/data/course.py:332-400"]}
{"id": "C108", "title": "Keys of clauses and assertions name what they are about", "statement": "A key is accepted in a where clause about courses or areas exactly when it names a field of such an item, so that no accepted clause is about nothing; performances accept name, status and role; an assertion is about a quantity exactly when it is written aggregate(operand) for one of the quantities of that kind of data, and any other name is refused.", "quantifier": "for all keys, kinds of data and assertions", "why_tests_cant": "The accepted keys and the keys that are applied are two tables in two modules; a test can only compare them at the keys it lists.", "anchors": ["dp/predicate_clause.py:301-325", "dp/data/course.py:149-284", "dp/data/area_pointer.py:71-93", "dp/apply_clause.py:240-286", "dp/assertion_clause.py:596-643"]}
{"id": "C109", "title": "Rounding of quotients does not show in averages", "statement": "Python divides decimals with 28 significant digits; every grade point average and average of numbers is nevertheless the exact quotient truncated to two places, as if division were exact.", "quantifier": "every transcript of fewer than about 10^22 hundredths of points and every list of credits", "why_tests_cant": "Rounding to 28 digits could carry into the second place only for inputs no test would contain.", "anchors": ["dp/lib.py:13-27", "dp/lib.py:grade_point_average"]}
{"id": "C110", "title": "Durations in words list exactly the non-zero counts", "statement": "pretty_ms with format_sub_ms writes, from years down to nanoseconds, exactly those units whose count is not zero, each with its count.", "quantifier": "every duration", "why_tests_cant": "Infinite domain.", "anchors": ["dp/ms.py:76-139"]}
{"id": "C111", "title": "The announced number of solutions bounds the solutions tried", "statement": "The number of solutions an audit announces before it starts (the estimate) is never less than the number of solutions the area generates, provided no course rule has more than one class to choose from, and it is that number exactly if every course rule has one class, the estimates of queries are exact and nothing raises. This holds for every loaded area, whatever its requirements are called. Without the proviso it is false: a class taken twice is announced once and tried twice.", "quantifier": "for all area specifications, students, exceptions and iteration orders of sets", "why_tests_cant": "The number is a sum over all combinations of products of estimates of subtrees, computed by different code from the one that generates the solutions; tests compare single numbers", "anchors": ["dp/rule/count.py:301-372", "dp/area.py:227-253", "dp/rule/requirement.py:118-125", "dp/rule/conditional.py:105-111", "dp/audit.py:67-76"]}
{"id": "C112", "title": "Labels of template courses are read exactly", "statement": "Reading the label of a template course gives, for every text and every transcript, exactly one reading and never fails: subject, number, optional section, kind letter, year and term, institution, or a name; a label written out of well-formed parts is read back as those parts with nothing left over. (False: that a label is read as a whole; other text after the number is ignored or taken for a kind of class.)", "quantifier": "all texts, all transcripts, all well-formed parts", "why_tests_cant": "labels are typed by people; the regular expressions have optional parts and no end anchor, and tests only show a few labels", "anchors": ["dp/data/student.py:181-214", "dp/data/student.py:263-288"]}
{"id": "C113", "title": "A label refers to the first class that fits it", "statement": "A template course gets the class id of the first class of the transcript that has the identity, section, kind, year and term, and institution of the label, and none when no class fits. (False for labs, foreign-language components and discussions: the identity of such a class carries a suffix, so that neither the label nor a course rule with the kind letter ever finds a class loaded from a row.)", "quantifier": "all labels, all transcripts, all rows", "why_tests_cant": "that no class at all is ever found is a statement about all transcripts", "anchors": ["dp/data/student.py:217-260", "dp/data/course.py:361-372", "dp/context.py:88-107"]}
{"id": "C114", "title": "Templates are what the labels mean, in one order", "statement": "The templates of a student are the pairs of a key and what one of its labels means, each once, in ascending order of key and fields, whatever the order of the labels, of the keys or of the set, and however often a label is repeated; as a dictionary each key has its templates in that order.", "quantifier": "all label lists, all transcripts, all orders of the set", "why_tests_cant": "the order of a set changes from run to run", "anchors": ["dp/data/student.py:121-127", "dp/data/student.py:172-177"]}
{"id": "C115", "title": "A student is loaded as the data says, in any order", "statement": "Loading the data of a student succeeds exactly when each part can be read, and then every field has the value the data gives: areas other than the audited one that are being dropped are left out, courses, performances and recitals are sorted, defaults are used for absent keys; the order of rows and keys in the data does not matter, and the constants used in rules come from the audited area.", "quantifier": "all student data, areas, overrides, credit overrides and iteration orders of the template set", "why_tests_cant": "Needs every combination of present, absent and malformed fields and every order of every list.", "anchors": ["dp/data/student.py:79-170", "dp/data/area_pointer.py:55-71", "dp/data/music.py:62-160"]}
{"id": "C116", "title": "Performing mediums listed with commas are read apart", "statement": "A medium without commas is taken as it is; several mediums separated by commas are read as the list of them without surrounding blanks.", "quantifier": "all texts", "why_tests_cant": "Unit tests sample a few separators; the reading has to be the only one for every text.", "anchors": ["dp/data/music.py:200-214"]}
{"id": "C117", "title": "Matriculation, curriculum and catalog are read without failing", "statement": "A missing number is 0; text with digits is its number; a catalog that is no number counts as 0.", "quantifier": "all values of the three keys", "why_tests_cant": "Every kind of value has to be considered for each key, including null.", "anchors": ["dp/data/student.py:115-138"]}
{"id": "C118", "title": "The report of averages lists every counted course once and its last cumulative average is the overall one", "statement": "The report goes through the terms in order; for each it lists the courses that count, sorted, then the average of the term and of all terms so far; every counted course is listed exactly once; the last cumulative average equals the overall average.", "quantifier": "all lists of distinct courses", "why_tests_cant": "Averages are truncated and accumulated over any number of terms; some terms have no counted course.", "anchors": ["dp/run.py:110-142", "dp/lib.py"]}
{"id": "C119", "title": "A run audits the student the data describes, with the exceptions of its area", "statement": "A run reads the exceptions filed under the code of the area, migrates their paths, applies those that change credits or subjects when loading the student, and then shows the transcript, the averages, or the audits of the area loaded for this student.", "quantifier": "all students, exceptions, specifications and switches", "why_tests_cant": "The claim is an equivalence over all data.", "anchors": ["dp/run.py:19-61", "dp/exception.py"]}
{"id": "C120", "title": "A run depends neither on exceptions of other areas nor on the order of the data", "statement": "Adding or removing an exception filed under another area changes nothing, even if it could not be read; giving the courses, performances or areas in another order changes nothing.", "quantifier": "all runs, all positions of the exception, all orders", "why_tests_cant": "Quantifies over orders of the data and iteration orders of sets.", "anchors": ["dp/run.py:27-31", "dp/data/student.py"]}
{"id": "C121", "title": "What a run reports is an audit of the best solution of the area", "statement": "Every reported result is the audit of a solution of the area; a run that tries all solutions and raises nothing ends with the result of a finished solution, or of one with the highest rank of all; no more solutions are audited than announced when no course rule has several classes to choose from.", "quantifier": "all runs", "why_tests_cant": "Composes loading, enumeration, audit and the driver, over all areas and students.", "anchors": ["dp/run.py:19-61", "dp/audit.py:67-166", "dp/area.py"]}
{"id": "C122", "title": "Limits are read exactly as written, and count together exactly if they are the same", "statement": "The limits of a specification are read exactly if each has an amount (a whole number or a number of courses or credits) under the first spelling of its key that is there, no unknown key and a clause that can be read; each loaded limit has that amount, unit and clause. Two limits share one counter exactly if python finds them equal. If no two are the same, no selection that is tried has more courses than any of the stated course limits allows.", "quantifier": "all data of limits, all texts of amounts, all transcripts and set orders", "why_tests_cant": "Quantifies over all texts, clauses and transcripts.", "anchors": ["dp/limit.py:49-78", "dp/limit.py:136-140", "dp/predicate_clause.py:243-298"]}
{"id": "C123", "title": "A conditional clause is refused in a limit", "statement": "A limit whose clause is an if is refused; failing that, the condition is settled when the limit is read and the limit restricts exactly the courses of the branch chosen then.", "quantifier": "all limits, conditions and courses", "why_tests_cant": "Quantifies over conditions and courses; the assertion in the code is never reached by a test.", "anchors": ["dp/limit.py:61-62", "dp/predicate_clause.py:188-240"]}
{"id": "C124", "title": "Limits are a set of conditions", "statement": "The selections that are tried under limits on courses are exactly those that keep every unlimited or forced course and meet every limit; so stating limits in another order or again changes nothing.", "quantifier": "all lists of limits and transcripts", "why_tests_cant": "Quantifies over all subsets of all transcripts.", "anchors": ["dp/limit.py:142-259"]}
{"id": "C125", "title": "The amount of a limit is the number that was written", "statement": "The loaded limit allows exactly the number written in the data.", "quantifier": "all amounts", "why_tests_cant": "Quantifies over all numbers and texts.", "anchors": ["dp/limit.py:64-76"]}
{"id": "C126", "title": "A stored result tells every part of the audit", "statement": "The dictionary stored for an audit holds, at the place of every course, query, count, requirement, conditional and proficiency of the result, exactly its type, path, status, rank, claims, conditions and assertions, and has no place for anything that is not part of the result; it can be written exactly when every part has a rank and every counted item has a text.", "quantifier": "all results and all places in them", "why_tests_cant": "Quantifies over all trees of results and all positions.", "anchors": ["dp/base/bases.py:31-43", "dp/base/course.py:44-69", "dp/base/query.py:45-59", "dp/base/count.py:25-33", "dp/base/requirement.py:24-34", "dp/base/conditional.py:21-27", "dp/base/proficiency.py:20-26", "dp/assertion_clause.py:142-178", "dp/area.py:48-60", "dp/server/audit.py:140-144"]}
{"id": "C127", "title": "The claims in a stored result are the claims of the audit", "statement": "Reading the claims out of the stored dictionary, along the branches in force and leaving out what is audited by hand, gives the claims of the area, in order.", "quantifier": "all area results", "why_tests_cant": "Quantifies over all trees of results.", "anchors": ["dp/area.py:399-400", "dp/result/course.py:43-47", "dp/result/query.py:44-45", "dp/base/count.py:41-42", "dp/base/requirement.py:97-101", "dp/base/conditional.py:56-62", "dp/result/proficiency.py:37-38", "dp/claim.py:14-19"]}
{"id": "C128", "title": "A stored course result tells the section it was taken in", "statement": "The dictionary of a course that was found holds the schedule id of the section that matched.", "quantifier": "all course rules, courses and claim tables", "why_tests_cant": "Quantifies over all audits of all courses.", "anchors": ["dp/base/course.py:44-69", "dp/result/course.py:14-41"]}
{"id": "C129", "title": "The printed report says what the result is", "statement": "The text printed for an audit is exactly the one described by the result itself: each part with its mark, status, rank, names, conditions, assertions and courses, in order and indented by depth; and printing fails exactly where that description says so.", "quantifier": "all results, transcripts, display options and ways to write numbers", "why_tests_cant": "Quantifies over all trees of results.", "anchors": ["dp/stringify_v3.py:11-387"]}
{"id": "C130", "title": "No requirement is left out of the report", "statement": "Every part of a result that is not below a requirement audited by hand has its full report within the printed one, with its own name and status.", "quantifier": "all results and all places in them", "why_tests_cant": "Quantifies over all trees and all positions.", "anchors": ["dp/stringify_v3.py:231-387"]}
{"id": "C131", "title": "Every stored result can be printed", "statement": "A result that was audited and stored can be printed.", "quantifier": "all audited areas and transcripts", "why_tests_cant": "Quantifies over all areas and results.", "anchors": ["dp/stringify_v3.py:204-228", "dp/stringify_v3.py:390-427", "dp/stringify_v3.py:592-602", "dp/stringify_v3.py:48-53"]}
{"id": "C132", "title": "Asking for the path of a requirement prints it", "statement": "With --print-path and the path of a requirement, that requirement is printed, and requirements elsewhere are not.", "quantifier": "all results, requirements and paths", "why_tests_cant": "Quantifies over all trees and all paths.", "anchors": ["dp/stringify_v3.py:342-343", "dp/stringify_v3.py:363-387", "dp/__main__.py:56-58"]}
{"id": "C133", "title": "The list of claimed courses is complete", "statement": "Below the report there is one line for each successful claim of the audit, naming the course and the requirements on its path, and no other line.", "quantifier": "all results and transcripts", "why_tests_cant": "Quantifies over all sets of claims.", "anchors": ["dp/stringify_v3.py:45-57", "dp/area.py:402-416"]}
{"id": "C134", "title": "The mark of a course agrees with the status of its rule", "statement": "A course printed with the mark of a finished course belongs to a rule that is done, and a rule that is done prints its course as finished.", "quantifier": "all course results and transcripts", "why_tests_cant": "Quantifies over all combinations of flags, claims and overrides.", "anchors": ["dp/stringify_v3.py:145-201", "dp/base/course.py:91-113"]}
{"id": "C135", "title": "The list of claimed courses names every claimed course, in order", "statement": "With --claimed, the tool prints one entry for every claim of the area's result, sorted by subject, number, year, term and section and otherwise in claim order, and it can always do so.", "quantifier": "all areas, transcripts and results", "why_tests_cant": "Quantifies over all sets of claims, including those whose rows differ in whether a section is known.", "anchors": ["dp/__main__.py:132-134", "dp/data/course.py:128-147"]}
{"id": "C136", "title": "Every attribute an area asks for is discovered", "statement": "The attributes listed for an area by the discovery tool are exactly those that its limits, queries and assertions compare with the attributes of courses.", "quantifier": "all areas, clauses and attributes", "why_tests_cant": "Quantifies over all trees of rules and clauses.", "anchors": ["dp/bin/discover.py:66-71", "dp/bin/discover.py:197-254", "dp/data/course.py:263-264"]}
{"id": "C137", "title": "Every course an area names is discovered", "statement": "The courses listed for an area by the discovery tool are exactly those that its visible course rules name.", "quantifier": "all areas and course rules", "why_tests_cant": "Quantifies over all trees of rules.", "anchors": ["dp/bin/discover.py:59-64", "dp/bin/discover.py:84-119"]}
{"id": "C138", "title": "The tables of references hold exactly what was found", "statement": "After a run with --insert the tables of course and attribute references hold exactly the references found in the given areas.", "quantifier": "all sets of references and all earlier contents of the tables", "why_tests_cant": "Quantifies over all earlier contents of the database.", "anchors": ["dp/bin/discover.py:134-194"]}
{"id": "C139", "title": "The row exported of a stored result", "statement": "The row that the table export makes of a stored result consists of the five head columns and exactly the cells of the parts looked at; a result can be exported exactly if no part looked at is a conditional, a requirement without result, or a query with an assertion or an unprintable filter. That every stored result can be exported is false.", "quantifier": "all audited areas, all results, all student numbers", "why_tests_cant": "The exporter is not covered by tests and raises on ordinary query rules.", "anchors": ["dp/stringify_csv.py:54-181", "dp/bin/csvify.py:18-41"]}
{"id": "C140", "title": "A course that stands in an exported row was passed", "statement": "A course shown in an exported row is that of a course rule with a passing status, if no requirement is directly over a course and there is no proficiency; in general it is false, as a requirement shows its course taken or not, and any text without a colon is coloured as done.", "quantifier": "all result trees", "why_tests_cant": "Needs the combination of rule shapes with unfinished students.", "anchors": ["dp/stringify_csv.py:71-100", "dp/bin/excelify.py:164-185"]}
{"id": "C141", "title": "Exported values stand below their own headings", "statement": "In the comma-separated table every value stands below its own heading and a missing one is empty, and the table is refused exactly if a row has a heading the first lacks; in the spreadsheet values stand below their headings when all rows have the same ones, and not in general.", "quantifier": "all lists of rows; rows of all audited areas", "why_tests_cant": "Depends on the results of several students together.", "anchors": ["dp/bin/csvify.py:30-41", "dp/bin/excelify.py:101-130"]}
{"id": "C142", "title": "A comparison lists exactly the results that differ", "statement": "A comparison of a branch with the baseline fails exactly if the branch has no results, and otherwise lists exactly the pairs of results of one audit that differ in ok, gpa, rank or maximal rank (and in what the mode asks for), whatever other branches hold.", "quantifier": "all databases, all modes, all branch names", "why_tests_cant": "The view is written in SQL with NULLs and joins over all branches.", "anchors": ["dp/testbed/compare.py:11-102"]}
{"id": "C143", "title": "A comparison lists every audit that ends otherwise with the new version", "statement": "After a baseline run with one version and a branch run with another, an audit that both finish quickly is listed exactly if its results differ, and nothing else is listed. That every audit that ends otherwise is listed is false.", "quantifier": "all audit functions, all databases", "why_tests_cant": "Needs failing and slow audits combined with the SQL of three commands.", "anchors": ["dp/testbed/compare.py:49-59", "dp/testbed/batch.py:41-140"]}
{"id": "C144", "title": "A batch stores exactly the results of the audits it was to run", "statement": "A batch replaces the baseline (or the results of one branch) by exactly the results of the audits due, of known areas, that gave one; other tables and branches stay. That copying fills the baseline and that a failing batch changes nothing are false.", "quantifier": "all databases, all audit functions", "why_tests_cant": "Depends on transactions and failures between them.", "anchors": ["dp/testbed/batch.py:26-140"]}
{"id": "C145", "title": "A stored course is read back as it was", "statement": "A course that was loaded, stored beside a result and read back is the same, except for the meeting, the hidden S/U grade and whether it is in progress this term or later, which are lost; decimals with at most six digits behind the point are read back exactly.", "quantifier": "all rows, terms, exceptions and overrides", "why_tests_cant": "The dictionary has 27 keys and the reader 26, under different names; no test reads back what was stored.", "anchors": ["dp/data/course.py:75-104", "dp/data/course.py:288-438", "dp/__main__.py:144-146", "dp/bin/csvify.py:25"]}
{"id": "C146", "title": "Clauses judge a course that was read back as before", "statement": "Every clause gives the same answer for a course that was stored and read back as for the course itself, unless it is about the grade and the course has a hidden grade; without the exception it is false.", "quantifier": "all clauses, all courses", "why_tests_cant": "Ranges over all clauses and courses.", "anchors": ["dp/data/course.py:149-284", "dp/data/course.py:75-104"]}
{"id": "C147", "title": "Durations are read from text exactly", "statement": "For every text, the milliseconds read from it are: the number, if the text without its blanks is a whole number; otherwise the sum of the numbers that have a unit, times what the unit is worth (d, h, m, s, ms; any other unit counts nothing), everything else in the text being passed over. The testbed's --min runs exactly the audits that took less than this; without a value it runs none.", "quantifier": "all texts", "why_tests_cant": "The reader is a regular expression scan over arbitrary text; tests sample a few spellings and cannot show that no other text is read in a surprising way (\"1.5s\" is five seconds).", "anchors": ["dp/ms.py:55-73", "dp/ms.py:32-40", "dp/testbed/batch.py:37-58"]}
{"id": "C148", "title": "Durations that were written are read back", "statement": "A duration written in short words with milliseconds and below is read back as the same whole number of milliseconds, up to whole years, for which there is no unit. In the default style (fractions of seconds) and in long words it is not.", "quantifier": "all durations below 2*10^27 ms and all styles with sub-millisecond parts", "why_tests_cant": "The round trip goes through two independent pieces of text code; tests check single durations.", "anchors": ["dp/ms.py:55-73", "dp/ms.py:76-139"]}
{"id": "C149", "title": "The index holds the areas of the students' files", "statement": "A run adds, for each file not named like a student in the table, exactly one row per area with what the file says (the student's catalog standing in for a missing one, its first year only), and lists all rows that meet the condition in the order of the student numbers, with the folder of their year. It fails exactly if the condition is none or a file to be read lacks something, and then the table stays as it was.", "quantifier": "all folders of files, all tables, all orders of reading, all conditions", "why_tests_cant": "Which files are read depends on the table left by earlier runs and on the order of a set; tests check one folder.", "anchors": ["dp/bin/index.py:42-94"]}
{"id": "C150", "title": "Indexing again adds nothing", "statement": "If files are named by their students, rows of students in the table are never changed by later runs; if moreover each file has an area, a second run adds nothing. Changed files are not read again, and files named otherwise are added once more each time.", "quantifier": "all folders, tables and orders", "why_tests_cant": "The behaviour needs two runs with files changed in between.", "anchors": ["dp/bin/index.py:57-75"]}
{"id": "C151", "title": "Areas are loaded as they are in their files", "statement": "Whatever was loaded before and however the files have changed since, the testbed loads for exactly those requested areas that have a file the specification that is in the file now, under the key catalog/code; a failing load leaves the table as it was.", "quantifier": "all histories of loads and changes of files, all parsers", "why_tests_cant": "A stale entry would appear only after particular sequences of edits and loads; tests cannot enumerate histories.", "anchors": ["dp/testbed/areas.py:13-72", "dp/testbed/db.py:88-95"]}
{"id": "C152", "title": "What can be met is found", "statement": "If a student can meet a rule with finished classes, each used once (a plan: which children, which courses), the search ends with a complete result: below the top for every rule, at the top if all children are asked for or no child is solved apart from the others, and for a whole run of an area that is not a major.", "quantifier": "all rules, transcripts, exceptions, plans, set orders", "why_tests_cant": "plans are infinitely many and the search prunes them in several places (promising children, independent children, limits)", "anchors": ["dp/rule/count.py:227-299", "dp/rule/count.py:374-470", "dp/solve.py:15-55", "dp/area.py:111-225"]}
{"id": "C153", "title": "Passing candidates are preferred", "statement": "If some candidate passes (is complete or pending current or registered classes), the selected result passes.", "quantifier": "all rules, transcripts and candidates", "why_tests_cant": "needs the rank of every possible pair of candidates", "anchors": ["dp/solve.py:26-48", "dp/rule/count.py:374-462"]}
{"id": "C154", "title": "The search is exact on trees of courses and simple queries", "statement": "For a tree of courses, counts, requirements, conditionals and queries over the transcript that ask for at least so many classes, courses, subjects, terms, years or credits (with limits of their own or without), the search for the best solution ends with a complete result if and only if there is a way to meet the tree with finished classes (and insertions, waivers), no class being used up twice. An area that asks for all of its children, made of such trees, and is not a major has a complete solution if and only if it can be passed in this sense.", "quantifier": "for all such trees, transcripts, exceptions and claim tables, for all orders of iteration over sets", "why_tests_cant": "both directions quantify over all ways to assign classes to the rules of any tree; tests can only compare single outcomes", "anchors": ["dp/solve.py:15-55", "dp/area.py:167-225", "dp/rule/count.py:227-425", "dp/rule/course.py:135-181", "dp/rule/query.py:179-233"]}
{"id": "C155", "title": "One more class does not hurt", "statement": "If an area is passed with some classes and more classes are taken, it is still passed. Holds for trees of courses and of queries that ask for at least so much, and for areas (not majors) that ask for all of their children made of these, with no limits at the queries or the area or with limits such that no class under a credit limit is under another limit and each of them is worth credits. False with a credit limit and a class worth none, and false for majors: the children choose their classes before the common block looks at them, so that a class taken S/U can make a major fail although another class taken would do.", "quantifier": "for all such areas, for all pairs of students of which one has taken all that the other has", "why_tests_cant": "a statement about pairs of transcripts for any area; the failing case needs an alternative taken S/U in a major", "anchors": ["dp/area.py:167-225", "dp/area.py:296-346", "dp/area.py:425-510", "dp/solve.py:15-55"]}
{"id": "C156", "title": "A part is marked as waived if an exception waives it", "statement": "In the result of an audit a part that was solved is marked as waived exactly if an exception of the student waives its path; rules left aside are not marked, but for queries and conditionals. A requirement left to the department passes exactly if it is waived. The common block of a major and its list are never marked: a waiver aimed at them is ignored.", "quantifier": "for all areas, students, lists of exceptions, solutions and parts of the result", "why_tests_cant": "marks are set when loading in some classes and when solving in others, and are carried through solution and audit; tests look at single trees", "anchors": ["dp/base/bases.py:94-95", "dp/rule/requirement.py:105-116", "dp/rule/count.py:227-299", "dp/rule/query.py:79-104", "dp/area.py:296-346"]}
{"id": "C157", "title": "An area without a specification passes only if it is waived", "statement": "If there is no file for an area, the audit uses a stand-in with one requirement left to the department. It has exactly one solution, uses no class, and is waived, done or empty according to the waivers at its two rules, if no exception adds a class; with added classes it still passes only if one of the two is waived.", "quantifier": "for all students, lists of exceptions and iteration orders", "why_tests_cant": "the stand-in must be inert for every transcript and every combination of exceptions", "anchors": ["dp/run.py:87-108", "dp/area.py:69-225", "dp/rule/requirement.py:105-116"]}
{"id": "C158", "title": "Loading a settings file sets exactly what its lines say", "statement": "After load, a variable that the last line about it gives a value has that value; every variable no line mentions keeps its value; and the file is refused, changing nothing, exactly if some line is not a comment, not empty and not a key and a value with one equals sign between them.", "quantifier": "for all file texts and all environments", "why_tests_cant": "A test has one file; this is about every text, with comments, repeated keys, blanks and carriage returns anywhere.", "anchors": ["dp/dotenv/dotenv.py:6-37"]}
{"id": "C159", "title": "A message becomes HTML without losing its text", "statement": "The HTML of a message has one block for every paragraph of the text without its common margin; a paragraph that starts with a tag is left as it is and any other is put in <p>. All that is not white space is kept, in order. Turning HTML into HTML again changes nothing, and neither does indenting the whole message.", "quantifier": "for all texts", "why_tests_cant": "A test has a few messages; losing a character, or the order of two paragraphs, can depend on any combination of indentation, newlines and tags.", "anchors": ["dp/autop/autop.py:4-20"]}
{"id": "C160", "title": "A query with one assertion finds what it asks for", "statement": "The search on a query over the transcript with one assertion \"at least n\" ends with a complete result if and only if the transcript has finished classes that the query and the assertion accept, as many as asked for: different classes, of different courses, in different subjects (CH/BI being either), in different terms or years, or with that many credits.", "quantifier": "for all such queries, clauses, transcripts, orders of iteration and claim tables", "why_tests_cant": "the search tries selections with a shortcut for counts and sums; that none is missed needs all transcripts", "anchors": ["dp/rule/query.py:179-233", "dp/rule/query.py:337-385", "dp/solution/query.py", "dp/assertion_clause.py"]}
{"id": "C161", "title": "Server, testbed and command line tell the same of an audit", "statement": "Auditing a student against an area has one outcome: an exception, nothing to audit, or a best result after so many audits. The server logs the failure or stores exactly one row with that result; the testbed, if no look at the clock is late, returns a row with the same iterations, rank, gpa, ok, status and result (keys sorted); the command line with --json prints that result and exits with 0.", "quantifier": "for all students, exceptions, area specifications, set orders, requests and personal data", "why_tests_cant": "The three programs listen to the same generator with different loops and different arguments; that they agree for all inputs is a statement about all message sequences.", "anchors": ["dp/server/audit.py:15-162", "dp/testbed/audit.py:11-105", "dp/__main__.py:74-113", "dp/audit.py:67-164"]}
{"id": "C162", "title": "The time limit of the testbed", "statement": "The testbed gives up on an audit exactly if one of its looks at the clock finds the limit reached: after the estimate, after every 1000 audits that are not complete, and when there was nothing to audit. (That an audit taking longer than the limit is given up is refuted.)", "quantifier": "for all students, areas, limits and clocks", "why_tests_cant": "Tests cannot try all clocks and numbers of solutions; the limit only takes effect for long searches.", "anchors": ["dp/testbed/audit.py:44-67", "dp/audit.py:118-127"]}
{"id": "C163", "title": "Exit codes of the command line", "statement": "The exit code is 0 or 2. With the default arguments it is 2 exactly if nothing was audited and 0 exactly if there is a best result that was printed (or --quiet); exceptions come from the audit or from printing. --gpa and --transcript audit nothing. (That exit code 0 means a result was printed is refuted for --print-all.)", "quantifier": "for all options, students and areas", "why_tests_cant": "The exit code depends on the whole message sequence of an audit; combinations of options and searches cannot be enumerated.", "anchors": ["dp/__main__.py:74-164", "dp/run.py:36-61"]}
{"id": "C164", "title": "Rendering of stored results in the testbed", "statement": "The testbed prints of a stored result exactly what the description of the report says, with paths, ranks and the classes of the student's data; it fails exactly where a part cannot be printed. (That it prints what the command line printed is refuted: exceptions on classes are not applied.)", "quantifier": "for all results of audits and all students", "why_tests_cant": "The report is a recursive rendering of arbitrary trees; agreement of two programs over all results is not testable.", "anchors": ["dp/testbed/render.py:86-132", "dp/stringify_v3.py:60-90"]}
{"id": "C165", "title": "Results stored by hand", "statement": "What is stored from the command line of the server is reachable by link only, is not active, never expires, and carries the run, student, catalog and code given. (That it is shown unless --link-only was given is refuted: the option is not used.)", "quantifier": "for all students, areas and options", "why_tests_cant": "The flow of the option through the program is a statement about every run.", "anchors": ["dp/server/cli.py:19-45", "dp/server/audit.py:71-150"]}
{"id": "C166", "title": "The validator complains about exactly the invalid files", "statement": "The validator prints an error for every file that cannot be read or that is not a specification an area can be loaded from, and for no other file; with --break it stops at the first. It prints nothing exactly if all files are valid. (The exit code says nothing: it is 0 whatever the files are.)", "quantifier": "for all lists of files, readable or not, and both settings of --break", "why_tests_cant": "the files the specification authors write are unbounded; a test validates some", "anchors": ["dp/bin/validate.py:14-47", "dp/area.py:69-165"]}
{"id": "C167", "title": "What the validator accepts loads for the students", "statement": "If a specification is valid, it loads for every student, with every settings and template, provided it is steady (no templates, no hidden conditionals, no conditionals about requirements, no constants where grades or numbers are expected), the student has declared none of its emphases, and exceptions insert only classes of theirs; and what loads for such a student is valid. Without these conditions both directions fail.", "quantifier": "for all specifications, students, constants, templates and exceptions", "why_tests_cant": "the validator loads a specification for nobody; tests cannot try it with all students", "anchors": ["dp/bin/validate.py:31-36", "dp/area.py:69-165", "dp/rule/conditional.py:35-95", "dp/rule/count.py:40-190"]}
{"id": "C168", "title": "A batch audits what is asked for", "statement": "dp/bin/batch.py reads the lines as words, audits the different ones in lexicographic order, the whole as many times as asked, and prints for each what its audit comes to, up to the first at which it ends; without any line the exit code is 1.", "quantifier": "for all lines, students, specifications, listings of folders and options", "why_tests_cant": "the lists are files of any content; a test has a few rows", "anchors": ["dp/bin/batch.py:15-106", "dp/run.py:19-107"]}
{"id": "C169", "title": "A batch that ends well is whole", "statement": "The exit code of dp/bin/batch.py is 0 if and only if something was asked for and all of it went through; the table then has one row for each line asked for, in order, with the figures of the best result against the specification in force. (If one cannot be audited, those after it are not audited at all.)", "quantifier": "for all lines, students, specifications, listings of folders and options", "why_tests_cant": "depends on every audit of an unbounded list", "anchors": ["dp/bin/batch.py:44-106"]}
{"id": "C170", "title": "A major that can be passed is found passed", "statement": "What a major asks for itself is complete in one of its solutions whenever it can be met with finished classes; and if some way to solve its top rule is complete and its classes satisfy the common requirements, one of the solutions of the area is complete.", "quantifier": "all majors, transcripts, exceptions, set orders", "why_tests_cant": "which of the many ways to solve the children survives the search depends on which children share classes; the common block is looked at only afterwards", "anchors": ["dp/rule/count.py:227-299", "dp/solve.py:15-55", "dp/area.py:111-225", "dp/area.py:425-595"]}
{"id": "C171", "title": "What-if requests reach the right area first", "statement": "A what-if request queues one row with priority 100 for the student, area and catalog given; the worker that takes it looks for the area of exactly that year, no row of smaller priority is taken while it waits, and its result does not replace the result of record.", "quantifier": "all states of the queue and workers, all years, areas and folders", "why_tests_cant": "depends on the interleaving of workers and on every catalog folder", "anchors": ["dp/server/whatif.py:15-37", "dp/server/worker.py:62-97", "dp/run.py:69-84"]}
{"id": "C172", "title": "Fetching copies exactly the results asked for", "statement": "Fetching adds exactly the results of the chosen run (or the active ones) to the testbed, or raises and adds none; the active results can always be fetched into a cleared table.", "quantifier": "all tables of the server, all histories of its workers, all tables of the testbed", "why_tests_cant": "needs a server database; duplicates arise only from particular histories", "anchors": ["dp/testbed/fetch.py:10-109", "dp/testbed/db.py:5-28", "dp/testbed/__main__.py:48-52"]}
{"id": "C173", "title": "The testbed shows the row asked for", "statement": "A query lists exactly the rows that agree with what is given, a single run audits the data of its row, extracting writes the data of the row named, and the command printed names the specification the server used.", "quantifier": "all tables, keys, orders of rows, catalog folders", "why_tests_cant": "several catalogs of one student and area are rare in fixtures", "anchors": ["dp/testbed/query.py:6-24", "dp/testbed/run.py:12-33", "dp/testbed/extract.py:8-32", "dp/testbed/invoke.py:8-20"]}
{"id": "C174", "title": "Branches of conditional assertions are read apart", "statement": "A conditional assertion is read as its condition and its branches, each at its own place; an exception that names the place of a branch changes or waives that branch and no other.", "quantifier": "all specifications, exceptions, places", "why_tests_cant": "exceptions at branches are rare, and a wrong place only shows when both branches are excepted differently", "anchors": ["dp/assertion_clause.py:95-110", "dp/assertion_clause.py:305-326", "dp/assertion_clause.py:408-430", "dp/assertion_clause.py:596-703"]}
{"id": "C175", "title": "A stored result is printed again as it was printed", "statement": "dp/bin/print.py, given the output of dp --json and the student's file, prints what dp printed of the result, if class ids are distinct and each class mentioned in the result is loaded for the audit as the file says (no overrides, not under way in a known term).", "quantifier": "all results, dictionaries, students, exceptions, terms", "why_tests_cant": "results and students are unbounded; equality of two texts for all of them depends on every lookup the printer makes", "anchors": ["dp/bin/print.py:13-31", "dp/stringify_v3.py:60-90", "dp/data/course.py:288-438"]}
{"id": "C176", "title": "What is tried under limits is known exactly", "statement": "If no class under a credit limit is also under another limit, and each class under one is worth credits, the selections of classes that are tried are exactly those that contain everything no limit may remove, keep within every limit, and contain all classes under a credit limit whenever all of them fit. There is always one, and the order in which python lists a set does not matter. False if a class under a credit limit is worth no credits: then there may be no selection at all.", "quantifier": "for all transcripts, all lists of course and credit limits and all forced classes", "why_tests_cant": "a statement about all subsets of any transcript under any limits; the failing case needs a class without credits and a limit that is just reached", "anchors": ["dp/limit.py:80-110", "dp/limit.py:166-183", "dp/limit.py:185-259"]}
{"id": "C177", "title": "Waiving a requirement does not turn a pass into a fail", "statement": "When further rules are waived (or further classes inserted at course rules without being forced), an area that was passed is still passed: what could be met can still be met, with no more classes used up, and the search finds it. For a major this is false: a waived rule uses no class, so fewer credits count toward the major and the common requirement of six credits at a C or higher can fail.", "quantifier": "all areas of courses, simple queries, counts, requirements and conditionals that ask for all of their top rules and are not majors; all limits, students, transcripts, exception lists; any iteration order of sets", "why_tests_cant": "A waiver changes which combinations are tried, which rules have potential and which classes are free for other rules; tests waive single rules in small trees and do not compare the whole search before and after.", "anchors": ["dp/rule/course.py:134-170", "dp/rule/count.py:226-320", "dp/rule/requirement.py:103-135", "dp/area.py:160-240", "dp/area.py:425-460"]}
{"id": "C178", "title": "A waiver leaves the rules as they are", "statement": "A waiver of a course, a count, a requirement or a proficiency does not change what is loaded from the specification: not the rule tree, not the limits, not the common requirements of majors, not which classes are set aside as required, and not whether loading succeeds. Only waivers of conditionals, queries and assertions are seen by the loaders.", "quantifier": "all specifications, constants, templates, students and exception lists that differ in such waivers only, whatever their number and position", "why_tests_cant": "Tests load a few specifications with one exception each; that no loader looks at any other waiver is a statement about all nestings of all rules.", "anchors": ["dp/area.py:69-165", "dp/area.py:425-595", "dp/rule/count.py:55-189", "dp/rule/conditional.py:28-61", "dp/rule/query.py:35-108", "dp/assertion_clause.py:596-703", "dp/context.py:156-212"]}
{"id": "C179", "title": "A query with limits finds the classes that stay within them", "statement": "The search on a query over the transcript with one assertion \"at least n\" and limits on courses or credits ends with a complete result if and only if the student has classes that the query and the assertion accept, as many as asked for, that exceed none of the limits.", "quantifier": "for all such queries, clauses, limits (no class under a credit limit is under another limit, and each of them is worth credits), transcripts, orders of iteration and claim tables", "why_tests_cant": "the search goes through selections of the classes under each limit, then through combinations of each selection, with shortcuts for counts, sums and credits that fit; that none is missed needs all transcripts", "anchors": ["dp/rule/query.py:179-233", "dp/limit.py:166-259", "dp/solution/query.py", "dp/assertion_clause.py"]}
{"id": "C180", "title": "An inserted class counts like a matching one, and once", "statement": "The search on a query with one assertion 'at least n' and classes inserted at it ends with a complete result if and only if there are finished classes, each taken once, that the query accepts or that are inserted at it, and that reach what is asked for; further insertions do not turn a complete result into another one. No class counts twice, though it both matches and is inserted.", "quantifier": "for all such queries, lists of insertions, transcripts, orders of iteration and claim tables", "why_tests_cant": "Inserted classes are appended to the matching ones, selections are drawn from both and completed with the insertions, and claims decide which of them are seen; whether some class is lost or counted twice depends on all of the transcript and all of the exceptions", "anchors": ["dp/rule/query.py:154-233", "dp/solution/query.py:117-161", "dp/apply_clause.py:190-196"]}
{"id": "C181", "title": "A class counts once at an assertion, and not at all if blocked", "statement": "The value of an assertion is that of the classes it is about: those it is given that pass its where and those inserted there, without those blocked there, each of them once. This holds where something is counted and nothing blocked, or where no class is inserted that is among those given or inserted twice. Otherwise an inserted class counts its credits twice, and a class that is given, inserted and blocked still counts.", "quantifier": "for all contexts, exceptions, data and assertions", "why_tests_cant": "a test fixes one set of exceptions; which combinations count a class twice or ignore a block depends on every combination of data, insertions and blocks", "anchors": ["dp/assertion_clause.py:195-223", "dp/apply_clause.py:190-196"]}
{"id": "C182", "title": "An exception that names no part of the area changes nothing", "statement": "Take an exception whose path names no part and no assertion of the area, lies beneath no part that the search asks about, and is not a forced insertion. Wherever it stands in the list of exceptions, the area tries the same solutions and finds the same results, claims and grade point average as without it. The two conditions cannot be dropped: an exception beneath a part makes the search take that part up, and a forced insertion anywhere takes its class out of the limits of the area.", "quantifier": "all loaded areas, transcripts, lists of exceptions and orders of sets", "why_tests_cant": "An exception file may hold entries for other areas and mistyped paths; which of them leak into an audit depends on every part of the area and on everything the search tries.", "anchors": ["dp/context.py:138-212", "dp/area.py:167-225", "dp/rule/query.py:266-284", "dp/rule/count.py:227-299"]}
{"id": "C183", "title": "An exception for a requirement that the area does not have changes nothing", "statement": "Take an exception at or beneath a requirement that would stand as the rule of the area or directly in its count, where no requirement in the specification has that name, and that is not a forced insertion. The area is loaded to the very same rules, limits and common requirements with it as without it, or fails to load with the same error; and the solutions that are tried, the results, the claims and the averages are the same.", "quantifier": "all specifications, templates, transcripts, lists of exceptions and orders of sets", "why_tests_cant": "Exceptions outlive the requirements they were granted for, as specifications change from year to year; that none of the loaders and none of the rules ever comes across such a path is a fact about all of them.", "anchors": ["dp/area.py:60-225", "dp/load_rule.py:17-69", "dp/context.py:138-212", "dp/rule/count.py:57-189", "dp/rule/requirement.py:30-81"]}
{"id": "C184", "title": "The order of exceptions for different parts does not matter", "statement": "The same exceptions may be listed in another order, as long as those with the same path keep their order, and so do those at or beneath the common requirements: the area is loaded to the very same rules, limits and common requirements, or fails with the same error, and the solutions that are tried, the results, the claims and the averages are the same. Exceptions with the same path may not change places: of two values for one assertion the first counts.", "quantifier": "all specifications, templates, transcripts, lists of exceptions, such reorderings and orders of sets", "why_tests_cant": "The exceptions come from a database in whatever order it gives; that no loader and no rule depends on the order of the whole list is a fact about all the places that look exceptions up.", "anchors": ["dp/context.py:92-212", "dp/area.py:60-225", "dp/exception.py:108-133", "dp/rule/count.py:57-189", "dp/assertion_clause.py:640-690"]}
{"id": "C185", "title": "A class that nothing in the area can use changes nothing", "statement": "Take an area that is no degree and a class that no rule for a course names, whose class id no rule or exception names, of which the clause of no query holds (a query may also exclude it), to which no limit applies and, for a major, which does not count as taken outside of the department; and no query looks at the claims of the others. Then the same solutions are tried for the student with and without the class, in the same order, and the results, the claims and the average are the same.", "quantifier": "all areas whose assertions are decided (all loaded ones), transcripts, limits, exceptions, classes and orders of sets", "why_tests_cant": "Students take many classes an area does not ask for; that none of them, by way of limits, of sorting, of solving children apart or of the order of candidates, changes the audit is a statement about pairs of runs.", "anchors": ["dp/context.py:56-118", "dp/limit.py:185-259", "dp/rule/query.py:128-177", "dp/rule/course.py:135-221", "dp/area.py:167-225", "dp/area.py:280-346"]}
{"id": "C186", "title": "A class that an area does not ask about leaves its rules alone", "statement": "Loading an area asks about the student: conditions of rules, where clauses, assertions and changes of what is expected may ask for a course (taken, completed or in progress) or an attribute, the courses that are required are searched on the transcript, and inserted classes are looked up. If no condition of the area and of its emphases asks about a course or an attribute of the class, no rule for a course is for it and no exception inserts or blocks it, the area is loaded to the very same rules, limits and common rules for the student with and without the class; with C185 the whole audit is then the same.", "quantifier": "all specifications, templates, constants, transcripts, exceptions and classes", "why_tests_cant": "The same file is loaded anew for every student, and any condition in it may choose other rules; that a class has no influence on the choice concerns all nestings of conditions and all transcripts.", "anchors": ["dp/conditional_expression.py:327-353", "dp/context.py:123-136", "dp/rule/course.py:112-126", "dp/area.py:69-165", "dp/rule/count.py:60-160", "dp/rule/conditional.py:29-62"]}
{"id": "C187", "title": "Declared areas, performances, recitals and examinations matter only as far as an area looks at them", "statement": "For two students with the same classes and any other records, an area whose questions about declared areas and examinations have the same answers, whose emphases are declared alike, and whose department and standing in art are the same, is loaded to the same rules; and if its queries and proficiency rules look at nothing in which the students differ, exactly the same solutions are tried, with the same results, claims and averages.", "quantifier": "all specifications and areas with decided conditions, pairs of students with the same classes, exceptions, orders of iteration", "why_tests_cant": "Every rule of an area is given the whole context; that a record no rule looks at has no influence concerns all nestings of rules and conditions and all pairs of students, not a pair that was tried.", "anchors": ["dp/area.py:69-165", "dp/area.py:425-595", "dp/rule/query.py:128-152", "dp/rule/proficiency.py:49-63", "dp/context.py:49-52", "dp/context.py:120-121"]}
{"id": "C188", "title": "What is shown of an audit does not change with classes and records the area does not look at", "statement": "With any arguments of the driver (what to print, when to stop, how often to report, which solutions to audit), the whole sequence of messages of an audit is the same for a student with and without a class that nothing in the area can use or asks about, and for two students with the same classes whose other records differ only where the area does not look: the announced number of solutions, every progress message with its rank and indices, every result with its tree and average, and the exception that ends the audit, if any.", "quantifier": "all specifications that load, students, exceptions, driver arguments and orders of iteration; the class and the records as in C186 and C187", "why_tests_cant": "The messages depend on every solution that is tried and on their order; that they agree one by one is a claim about all areas, transcripts and arguments.", "anchors": ["dp/audit.py:67-166", "dp/area.py:227-253", "dp/rule/count.py:301-372", "dp/rule/query.py:235-256"]}
{"id": "C189", "title": "Exceptions that change nothing also show nothing", "statement": "With any arguments of the driver, the whole sequence of messages of an audit (the announced number of solutions, the progress, the results with their trees and averages, the exception at the end) is the same with and without an exception that names no part of the area and lies beneath none that is asked, in particular one for a requirement the area no longer has, and it is the same in whatever order exceptions for different parts are listed.", "quantifier": "all areas with decided conditions, specifications, students, lists of exceptions, positions, driver arguments and orders of iteration", "why_tests_cant": "The estimate and the search look exceptions up at every part and ask for those beneath it; that one elsewhere is never seen, whatever else is listed, concerns all areas and all lists.", "anchors": ["dp/audit.py:67-166", "dp/area.py:227-253", "dp/context.py:138-213", "dp/rule/count.py:301-372"]}
{"id": "C190", "title": "Stale entries of the file of exceptions, and the order of entries, do not show in a run", "statement": "Whatever a run is asked for (transcript, averages or audit, with any arguments), it shows the same and fails the same with and without an entry of the file of exceptions that is read as an exception for a requirement the area does not have, unless that inserts by force or overrides the credits or the subject of a course; and two neighbouring entries for different parts of the area, not both in the common requirements and not both overrides, may be swapped.", "quantifier": "all student data, files of exceptions, positions, specifications with migrations, switches, arguments and orders of iteration", "why_tests_cant": "A run reads, migrates, groups and looks up exceptions in many places before anything is shown; that a stale entry is harmless concerns every area, student and file.", "anchors": ["dp/run.py:19-61", "dp/exception.py:96-105", "dp/audit.py:67-166", "dp/area.py:69-165"]}
{"id": "C191", "title": "Students who agree on what an area can use are shown the same", "statement": "If two students have the same classes once classes that the area cannot use are left out of each, in any number, and their other records are alike where the specification and the rules look, then the same rules are loaded for both and the audit shows both the same estimates, progress and exceptions and results with the same area, tree and average; only the context that a result carries along may differ.", "quantifier": "all specifications, areas that are not degrees and load for both students, lists of exceptions, students, arguments, orders of iteration and lists of classes that nothing in the specification, the area or the exceptions concerns", "why_tests_cant": "Agreement is between two arbitrary students with any number of differing classes and records; no finite set of pairs settles that nothing else is looked at.", "anchors": ["dp/audit.py:67-166", "dp/area.py:69-165", "dp/area.py:276-343"]}
