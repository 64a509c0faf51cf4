# Formal model of degreepath/auditor

Rocq (Coq 8.16.1) development in `rocq/theories`, logical root `Verif`.

## Method

The python code is modelled function by function as total, computable Gallina
functions. Exceptions are values (`res`), generators are finite lists of yielded
items followed by an optional exception (`gen`), and the only mutable state that
the audit core has (the claim table of a `RequirementContext`) is threaded
explicitly. Each definition cites the file and lines it models.

Layers:

| file | models |
|------|--------|
| `Prelude` | results, generators, `itertools.combinations`, stable sort |
| `Status` | `dp/status.py` |
| `Claims` | claim part of `dp/context.py`, `dp/claim.py` |
| `LazyProduct`, `Ncr` | `dp/lazy_product.py`, `dp/ncr.py` |
| `Paths` | path comparison of `dp/base/bases.py` |
| `Op`, `OpMemo` | `dp/op.py` |
| `Course`, `Dec`, `Grades`, `Transcript` | `dp/data/course*.py`, `dp/lib.py`, `dp/data/student.py` |
| `Predicate`, `CondExpr` | `dp/predicate_clause.py`, `dp/conditional_expression.py` |
| `Limit`, `LimitLoad` | `dp/limit.py` |
| `Apply`, `Assertion` | `dp/apply_clause.py`, `dp/assertion_clause.py` |
| `Query` | `dp/{rule,solution,base,result}/query.py` |
| `Exceptions` | `dp/exception.py`, exception lookups of `dp/context.py` |
| `Tree` | `dp/base/*`, `dp/rule/*`, `dp/solution/*`, `dp/result/*` |
| `Solve`, `Driver`, `Area` | `dp/solve.py`, `dp/audit.py`, `dp/area.py` |
| `Loader`, `AreaLoad` | `dp/load_rule.py`, the `load` functions of rules, `AreaOfStudy.load` |
| `Server` | `dp/server/*` |
| `Label`, `StudentLoad`, `Run` | `dp/data/student.py`, `dp/run.py` |
| `Catalog`, `Ms` | `dp/run.py:find_area`, `dp/ms.py` |
| `Batch` | `dp/server/batch.py`, `dp/bin/expand.py` |
| `Keys`, `Round` | keys of dictionaries, rounding of `Decimal` quotients |
| `Estimate` | the estimate methods |
| `Json`, `Report` | the `to_dict` methods, `dp/stringify_v3.py` |
| `Discover` | `dp/bin/discover.py` |
| `Claimed` | the list of `--claimed` in `dp/__main__.py`, `CourseInstance.pretty` |
| `Export` | `dp/stringify_csv.py`, tables of `dp/bin/csvify.py` and `dp/bin/excelify.py` |
| `Testbed` | `dp/testbed/batch.py`, `compare.py`, tables of `dp/testbed/db.py` |
| `Stored` | `CourseInstance.to_dict` and reading it back with `load_course` |
| `MsRead` | `dp/ms.py:parse_ms_str` |
| `Index` | `dp/bin/index.py` |
| `AreaCache` | `dp/testbed/areas.py` |
| `MissingArea` | `dp/run.py:load_area` when there is no file |
| `Dotenv`, `Autop` | `dp/dotenv/dotenv.py`, `dp/autop/autop.py` |
| `Client` | what listens to `run`: `dp/server/audit.py`, `dp/server/cli.py`, `dp/testbed/audit.py`, `render_result`, `dp/__main__.py` |
| `Validate` | `dp/bin/validate.py` |
| `Bulk` | `dp/bin/batch.py` |
| `Reprint` | `dp/bin/print.py` |
| `Fetch` | `dp/testbed/fetch.py`, `query.py`, `extract.py`, `invoke.py`, the row of `run.py`; `dp/server/whatif.py` |

Property theorems sit in `*Props.v` files beside an `Example` showing that the
hypotheses are met by a concrete non-trivial case, and `Print Assumptions`.

## Plan per property

- C01-C05 `Claims`: invariant by induction over arbitrary claim histories; C04 is
  expected to be false (the filter compares strings with tuples) and will be refuted.
- C06, C07 `Solve`: specification "first done/waived, else first maximum" over the list
  of audits; C07 expected false (claims of the last audited candidate are merged).
- C08, C09 `AuditLoop`: the loop as a fold; equality with an independent specification.
- C10 `LazyProduct`: odometer state machine; refinement to the Cartesian product.
- C11 `Ncr`: equality with Pascal's triangle and with the number of combinations.
- C12-C16 `Limit`: soundness by invariant of `check`, completeness of enumeration.
  C15 and C16 are expected to be false for overlapping credit limits; refute and prove
  the single-limit part.
- C17-C19 `Op`: values as an inductive type with python string coercion; C19 (memo
  table keyed by python equality) expected false: refute.
- C20 `Predicate`, C62 `CondExpr`: induction on trees against a boolean denotation.
- C21-C25 `Grades`, `Gpa`, `Transcript`.
- C26-C31 `Apply`, `Assertion`, query enumeration.
- C32-C36, C60 `Tree`: structural induction on result trees.
- C37 `Paths`: strict total order; refuted for non-canonical indices.
- C38-C44, C47, C48, C61 `Tree`.
- C45, C46 `Exceptions`.
- C49, C50 `Area`.
- C51-C57 `Server`: transition system with crash steps; invariants over all executions.
- C58, C59 `Misc`.
- C115-C117 `StudentLoad`: every field of the loaded student against relations between data and value, then independence
  of the order of the data.
- C118-C121 `Run`: the report of averages, what a run starts from and shows, and the audit theorems composed end to end.
- C122-C125 `LimitLoad`: the data of limits read exactly; which limits count together; the selections tried are exactly the admissible ones.
- C126-C128 `Json`: parts of a result and places of its dictionary reached by the same steps; claims read back.
- C129-C134 `Report`: the report described from the result; printing the dictionary gives exactly that; then completeness.
- C135 `Claimed`: the list against an order of offerings stated on its own.
- C136-C138 `Discover`: the lists against relations between an area and what it mentions; the tables as sets of rows.
- C139-C141 `Export`: rows against an inductive relation between a result and its cells; tables cell by cell.
- C142-C144 `Testbed`: the tables after a batch and the rows of a comparison as sets, for any function that audits.
- C145, C146 `Stored`: writing a course and reading it as functions on courses; decimals as texts.
- C147, C148 `MsRead`: the scan against an inductive reading of texts; then the reading of what `pretty_ms` writes.
- C149, C150 `Index`: rows against what a file says; runs one after the other.
- C151 `AreaCache`: an invariant of the table over all histories, for any parser.
- C152, C153 `Plan`: an inductive notion of a rule that can be met with given classes (`meets`), independent of the search; the search
  offers such a plan and its audit is complete; then the top, the area and the whole run. `WholeProps`: tops of any kind no child of
  which is solved apart from the others.
- C154, C155 `Mono`: back from a complete result to a plan, for trees of courses and simple queries; plans stay plans when the transcript
  grows. `MonoLimitProps`: with limits, each selection of the classes is within a selection of the further ones. C177 `MonoExcProps`: plans
  stay plans, or need fewer classes, when exceptions are added. C178 `WaiverLoadProps`: the loaders with two lists of exceptions that
  differ in waivers they do not look for. C160 `MonoAsk`: the plans of a query with one assertion said of the transcript. C179
  `MonoAskLimitProps`: the same with limits, by the exact description of the selections (C176). C180 `MonoInsertProps`: the same with insertions, from the candidates of the search. C181 `AssertInsertProps`: insertions and blocks at assertions, from what an audited assertion measures. C182 `Frame`:
  the search and the audit look up exceptions at the paths of the parts and beneath the parts that are asked about, and nowhere else.
  C183 `Gone`: the same for the loaders, whose paths lead through no requirement that the specification does not define.
  C184 `ReorderProps`: lists of exceptions that agree at every path, by the lemmas of `Frame` and `Gone`.
  C185 `Idle`: the search and the audit with a transcript and with the same without one class, which every filter leaves out.
  C186 `IdleLoad`: the loaders with two contexts that answer the questions of a specification alike; what it asks is collected in `IdleLoadSpec`.
  C187 `Other`: the search, the audit and the loaders for two students with the same classes and other records, which no rule and no question looks at.
  C188 `Shown`: the estimates in two contexts with the same potential and matches, and the driver run on outcomes that are the same.
  C189 `ShownExcProps`: the same with the lemmas of `Frame`, for lists of exceptions that agree where the area looks.
  C190 `ShownRunProps`: C189 carried to whole runs, from the entries of the file of exceptions on.
  C191 `AgreeProps`: C188 for any number of classes and for records at once, between two arbitrary students.
- C156 `Waive`: the marks of solutions by induction on trees, carried through the audit, for loaded areas.
- C157 `Missing`: the loaded tree by inversion of `written`, then the search on it.
- C158 `Dotenv`: lines against a relation between a line and what it says. C159 `Autop`: the HTML against a relation, then what is kept.
- C161-C165 `Client`: what an audit comes to, said without messages (`comes_to`); the messages are a function of it, and what each
  listener does follows.
- C166-C167 `Validate`: the loader run twice, for two students, by induction on the specification: what loads for one loads for the other.
- C171-C173 `Fetch`: rows against a relation of copies, composed with histories of `Server`; the queue of `Server` with a what-if row.
- C175 `Reprint`: the printer looks up only ids that occur in the dictionary; then the classes of the two transcripts are the same.
- C176 `LimitApart`: the combinations of each limit and the check against conditions on selections, in both directions.
- C174 `Branch`: reading a conditional assertion as a relation; exceptions through `threshold_is_as_changed`.
- C170 `Major`: what a major asks for itself, from `Plan`; its common block against any complete solution of the top rule.
- C168-C169 `Bulk`: rows against a relation that uses `comes_to` of `ClientSpec`.
- C112-C114 `Label`: the regular expressions against relations between a text and its parts.
- C111 `Estimate`: the announced number against the length of the enumeration, by induction on trees.
- C99-C106 `AreaLoad`: exactness of loading, then end-to-end statements with hypotheses about
  the specification, the student and the exceptions only.

## Trusted base

Coq's kernel; the reading of the python source into Gallina (each definition cites the
lines). `Print Assumptions` is run for every property theorem. Details are listed at the
end of this file as the development grows.

### Print Assumptions

Every property theorem so far is "Closed under the global context": no axioms. Loading
`lia`/`lra` pulls in the library file `Coq.ssr.ssrunder`, which contains a few axioms-like
parameters; no theorem here uses them.

### Modelled, and not modelled (by layer)

- Decimals are exact finite decimals (no NaN). `Round` models the division of the decimal module
  (28 digits, half even) and proves that it cannot be told from exact division in averages and
  durations of any realistic size; sums are exact in the model.
- `Op`/`OpMemo`: comparison operators and the two memo tables keyed by python equality.
- `Predicate`: evaluation and loading of where clauses. The `lru_cache`s on predicates are
  not modelled; templates are in `Label`.
- `Limit`: `limited_transcripts` and `check`, with an arbitrary iteration order for
  frozensets. `apply_limits` and `estimate` (both unused) are not modelled. A limit
  is identified as a dictionary key by `lm_id`.
- `LimitLoad`: `Limit.load` and `LimitSet.load`, and the equality of limits as dictionary keys.
  Amounts given as texts are read without a plus sign, underscores or exponents; floats are exact
  decimals; `decimal.InvalidOperation` is given as `ValueError`; only ASCII white space separates
  words.
- `Transcript`: `load_course`, `load_transcript`, credit and subject overrides, the grade
  point average. A row has its mandatory keys, year and level are integers, decimals are in
  plain notation; the average is the exact quotient cut to two places. Templates
  are in `Label`.
- `Apply`/`Assertion`: every key of `dp/apply_clause.py` and every assertion class:
  evaluation, audit, rank, status, sizes, loading. `repr` of items is taken to be injective.
- `Query`: `dp/rule/query.py`, `dp/solution/query.py`, `dp/base/query.py` and
  `dp/result/query.py`: loading, candidates, enumeration, estimate, audit, rank, status.
  `to_dict` is in `Json`; logging is left out.
- `CourseRule`: `dp/rule/course.py`, `dp/solution/course.py`, `dp/base/course.py`,
  `dp/result/course.py` and `find_courses`: loading, enumeration, audit, status, rank,
  required courses. `hidden` and logging are left out; the transcript is not pre-filtered
  by `find_courses(from_claimed=True)`, which is only used for display.
- `Tree`: count, requirement, conditional and proficiency nodes of `dp/base`, `dp/rule`,
  `dp/solution`, `dp/result`: status, rank, claims, potential, matches, required courses,
  exclusion, blocking, solutions (without independently solved children, which are in
  `Solve`), audit. Siblings are told apart by their paths (python compares rules by value);
  `message` is left out, `to_dict` is in `Json`, and loading is not part of this file. A generator
  is its list of items followed by an optional exception; the tables of claims that a
  solution is audited against are explicit.
  The audit theorems (C05, C47, C82) describe one history of claim attempts per solution.
- `Solve`: `find_best_solution` (`dp/solve.py`) and the `depth=1` part of
  `CountRule.solutions` with `find_independent_children` and `solve_independent_children`
  (`dp/rule/count.py:227-470`), with the defaults of the environment options
  (`DP_INDEPENDENT=1`, no `DP_WIP_MC_OPTIMIZATION`). Iteration of sets of rules is a
  parameter. Logging is left out.
- `Driver`: the loop of `audit` (`dp/audit.py`), over a stream of audited solutions or
  exceptions; the trace lists audits and messages in order. Clock values are left out.
- `Area`: `AreaOfStudy.solutions`, `AreaSolution.audit`, the common block and the results of
  `dp/area.py` (status, rank, claims, average, keyed claims), from a loaded area on. Claim
  tables are also modelled as shared objects in a store, to show that audits do not
  interfere. Loading an area and `estimate` are not part of this file; templates and the
  `DP_`-option of lines 193-200 are left out.
- `Loader`: `dp/load_rule.py` and the `load` functions of count, requirement, conditional and
  proficiency rules; transcript templates (`dp/data/student.py` TemplateCourse) are read from
  their parsed form (`Label` parses them). A dictionary is given by what it holds for each class of rules; messages
  are left out. Requirements in scope are functions that load when they are referred to.
- `AreaLoad`: `AreaOfStudy.load` and `prepare_common_rules` (`dp/area.py`), emphases as
  `CountRule.load` adds them. Messages are
  left out, emphases have no emphases of their own. The rules common to all majors are loaded
  by the same functions as any other rule (`Common*`). `AreaClaim` and `AreaEndProps` put loading,
  solving and auditing together.
- `Table*`: the codes and keys that enumerations and loaders accept, as tables written apart
  from the model, and proofs that exactly these are read.
- `Ms`: `dp/ms.py`, for decimal arguments (the code passes floats or integers, whose quotients
  are not modelled). `keep_decimals` and `milliseconds_decimal_digits` keep their defaults.
- `Catalog`: `find_area` (`dp/run.py`), for a listing of folders and codes without wildcards.
- `Server*`: `dp/server/worker.py`, `audit` of `dp/server/audit.py` and `dp/server/clear_expired.py`
  as a transition system: any number of workers on one database at READ COMMITTED, single
  statements as events, crashes and failing statements at any point. A statement that finds locked
  rows is two events, the look and the change. `BEGIN` within a transaction goes on with it. The
  trigger that notifies workers of new rows is not in the repository; it is taken to notify every
  listening worker at the commit of the row. Rows of equal priority and age are served in any
  order. An audit is an outcome (a result, an exception, an unknown area); NULLs in keys, and
  failures of statements outside `audit`, other than the end of the process, are not modelled. The
  history in the state is read by no step.
- `Batch`: `dp/server/batch.py` and `expand_student` of `dp/bin/expand.py`: any interleaving of the
  threads on their one connection. The mandatory keys of a student are there; `int` takes decimal
  digits. The set of codes is gone through in any order.
- `Estimate`: `estimate` of `dp/area.py`, `dp/rule/{count,course,query,requirement,conditional,proficiency}.py`
  and `dp/conditional_expression.py`, with the default options; the size of each set of items that
  the rule of an area announces. `SHOW_ESTIMATES` (option `DP_ESTIMATE`), which only prints, is
  left out. `EstimateLoad` shows that what the loader gives meets the hypotheses of the theorems.
- `Label*`: the labels of template courses, `parse_template_course_rule`, `parse_identified_course`,
  `parse_named_course`, the templates of `Student.load` and `templates_as_dict` (`dp/data/student.py`). The two
  regular expressions are terms matched with backtracking; text is bytes and `\d` is 0 to 9.
- `StudentLoad`, `Student*`: `Student.load`, `constants` (`dp/data/student.py`), `AreaPointer.from_dict` and the `from_dict`
  functions of `dp/data/music.py`. The data holds null, booleans, integers and text (no floats); numbers in text are
  digits with or without a minus sign; `strip` knows ASCII white space. Keys that may be absent are options.
- `Run*`: `run` and `gpa_only` (`dp/run.py`), `load_migrations` (`dp/exception.py`). The rows of the two reports are
  values rather than csv text; sets of courses are lists without repetition; reading files is not modelled. The
  specification is the one of `AreaLoad` with its credit assignments and migrations.
- `Json*`: the `to_dict` methods of rules, solutions, results, areas, claims, limits, assertions, clauses and
  conditions. The dictionaries of exceptions, transcripts and students are not modelled. Items counted by an
  assertion have a text (`Decimal`s and texts); ranks stay exact numbers; `hidden` is left out.
- `Report*`: `dp/stringify_v3.py` on the dictionaries of `Json` after `json.loads`. `repr` and `json.dumps` of texts and the
  texts of ranks are parameters. The first line (numbers of audits and times) is left out; a report that fails midway
  is an exception without the lines before it.
- `Claimed*`: sorting inserts one row after the other; python's algorithm compares other pairs, but every algorithm meets a
  comparison of a missing section with a section when there is one in an offering.
- `Discover*`: loading and storing of references, from loaded areas on. The definition of the tables is not in the
  repository: rows are taken to conflict exactly if they are the same. `hidden` is a parameter; digits are ASCII.
- `Export*`: from the stored dictionary to the table of values. `repr`, `str(Decimal)` and `str.title` are parameters of the rows;
  xlsx and csv encoding, widths and the pools of `excelify` are not modelled, the rows are the same as those of `csvify`.
- `Testbed*`: audits are a function from the key of a row to how the audit ends; SQL conditions have three truth values. The order of
  rows, parallel workers and progress output are not modelled (the cache of areas: `AreaCache`). Numbers are exact (sqlite: real).
- `Stored*`: the dictionary of a course is the row that is read; json in between is not modelled. Decimals with more than six digits
  behind the point are written with an exponent, which the model of `Decimal(str)` does not read.
- `MsRead*`: ASCII text; numbers of any length (newer Pythons refuse more than 4300 digits). `sec` is exact (28 digits in the code).
- `Index*`: values in files are texts or missing; the condition is a function of the row; `catalog + 1` reads leading digits only.
  The default folder, `--clean` and progress output are not modelled.
- `AreaCache*`: `yaml.load`, `json.dumps` and `json.loads` are parameters; paths and contents are functions of catalog and code.
- `LazyRun` is the finished run of `lazy_product`, proved equal to the state machine.
- `Plan*` adds no model. The theorems about areas and runs are about areas that are not majors (no common block), children that are
  declared disjoint and are so, and transcripts without two different classes of one id.
- `Mono*` adds no model. It is about trees without proficiencies, clauses at counts, parts left to the department and multicountable
  sets, and with queries only if they read the transcript, have no limits, and ask for at least so much of something that grows with the
  classes (`simple_query`); no class has negative credits (`no_debts`). The area is the same for both students (its loading is not redone with the second transcript).
- `Waive*` adds no model. `MissingArea` leaves out the message of the stand-in; that opening a file fails is its argument.
- `Dotenv*`, `Autop*`: ASCII text; the environment takes every name and value. `textwrap.dedent` is the one of the library: empty lines are
  emptied, the longest common indentation is removed.
- `Client*`: durations, the wording of log lines and of the estimate and the parsing of options are not modelled. The time is a parameter, one
  value for each look at the clock. The queries of `render.py` and its comparison of two results (`difflib`) are not modelled; stored results of
  format 2 (`dp/stringify_v2.py`) are an exception. What the SQL statements of the server do is in `Server`.
- `Validate*`: what opening and reading a file comes to is the argument of the model; the progress output and the text of the tracebacks are left out.
- `Fetch*`: the columns that are only copied are one value; the summary of runs (`fetch__print_summary`) and what a single run prints (see `Client`) are
  left out. The defaults of the queue's columns are arguments. Options are given as read.
- `Major*` adds no model.
- `Reprint*`: what the two files hold is the argument of the model.
- `Bulk*`: the files are a function of their names; output on stderr, the rounding of the numbers of the table and the parsing of options are left
  out. Codes have no wildcard characters (as in `Catalog`), words are separated by ASCII white space.
- The Rust programs of the repository (`src/dp-report.rs`, `formatter/`, `reports/`) read stored results and are not modelled.

### Findings (false properties of the code, with witnesses)

- C04: the multicountable filter compares strings with tuples.
- C15: two overlapping credit limits let more than the maximum through.
- C16: the credit check depends on set iteration order when a course has zero credits.
- C19: the operator memo table conflates values equal in python but different as strings.
- C64: a credit limit whose courses all fit offers only the full selection; an overlapping
  course limit may then reject it and the area is never audited.
- C26: the two "terms from most common course" keys evaluate the finished courses through a
  used-up generator, so an assertion that the finished courses satisfy is still pending.
- C28: `$gt n` over n candidates tries only the size n + 1, which has no selection; `$lt 0`
  tries none.
- C31: a false `$if` without alternative counts as unmet, a false `$when` as met.
- C29: with several assertions only the largest simple count decides the sizes tried, and
  `count(terms)` is treated as a count of courses, so a selection that satisfies all
  assertions may never be tried.
- C41: courses inserted by exception are dropped when no selection size is possible.
- C68: the estimate counts one for every size that does not exist.
- C42: a rule by course id, name or AP exam ignores its section, year, term and sub-type; a
  sub-type letter outside E, L, F, D is ignored; a class id bypasses the other fields.
- C44: `CourseSolution.from_rule` drops `from_claimed`, so a from_claimed rule is satisfied
  by a course nobody claimed.
- C32: the rank of "at most 1 of nothing" raises ValueError (`max` of an empty list).
- C35: the override of a conditional is loaded but no status, rank or solution looks at it.
- C40: a conditional that selects a missing branch yields no solution; a requirement around
  it with an exception beneath is said to have potential, and the count above it raises.
- C43: a block exception for the course beneath a proficiency rule has no effect.
- A count of 0 whose children are all untouched is reported Empty, not done.
- C07: `find_best_solution` merges the claims of the candidate looked at last, not those of
  the best one; with no candidate at all merging raises UnboundLocalError.
- C85: only requirements pass `is_never_disjoint` on, so a query over claimed courses below a
  count is solved on its own, on an empty table, and finds nothing.
- C86: with `print_all` (or `print_only` with several indices) a done or waived solution ends the
  loop before its result is said, and nothing is said afterwards.
- C87: claims are cleared after each solution, so only the first solution of a transcript is
  audited with the claims of the children solved apart. A query over claimed courses then
  fails for all later solutions; the witness reports an area as under way that is done.
- C88: a major whose top rule asks for fewer children than it has can be done while its common
  block is empty. `common_rules[2]` raising IndexError inside drops the third common rule.
- C90: two children of the top rule that both carry `disjoint: true` are solved apart without a
  look at their courses, and then both use the same class.
- C92: two emphases of the same name are loaded at the same path.
- C94: the number a count asks for is compared with its rules as written; if one is hidden by
  `$hide-when-false` the count can never be satisfied. A requirement whose result is hidden
  raises AttributeError.
- C96: a requirement used only in the branch of a conditional that is not in force counts as
  unused, so whether a specification loads depends on the student.
- C97: only courses of exactly one credit count as taken S/U (unless the degree is B.M.), so any
  number of courses of 0.5 or 1.25 credits may be. A B.M. student with a course taken S/U gets
  the status Empty for that rule, as if nothing had happened yet. If the department of the
  major is not known the block never passes. A department code that starts with a dollar sign
  makes loading fail.
- C100: two declared emphases, one flattened and one whose name continues the other's with an
  arrow and a requirement ("One", "One → X"), are loaded at the same path.
- C102: the course beneath a proficiency, and a query over claimed courses, take no notice of
  a block exception at their path.
- C104: if the rule at the top is an "any" or a number, a declared emphasis can be left out.
- C106: a valid emphasis whose result has no "all", and that has no "requirements", raises
  KeyError for those who declare it; with a "both" or an "either" at the top every declared
  emphasis raises AssertionError.
- C58: a folder such as "2019-20-old" is taken for a catalog later than "2019-20".
- C59: a day's worth of milliseconds short of 10^21 days is rounded up by the division.
- C109: a quotient within 10^-28 of a hundredth is rounded up to it, so cut to two places it is
  too large; averages of real transcripts are far from that.
- C110: a duration of zero is written "ms" without a number, and without `format_sub_ms` the
  seconds are rounded after the minutes were taken off: "60s", "1m 60s".
- C111: a course taken twice is announced as one choice of its course rule and tried once per
  class, so more solutions are tried than were announced (25 for 9). If no course rule has two
  classes to choose from, the announced number is an upper bound.
- C112: text after the number of a label is ignored or taken for a kind of class ("CSCI 121 Lab" has
  kind L); a name with a bracket is dropped without notice; "name=" alone means the first class.
- C113: the identity of a lab, foreign-language component or discussion has a suffix (".L"), but labels
  and course rules with the letter compare it with the identity without suffix. They never find a class.
- C128: the result of a course drops the course that matched, so `matched_scedid` is null in every stored result, and
  `forced`, `from_claimed` and `excluded_clbids` are lost.
- C131: a where clause with a negation (`$not`), a proficiency without a course and a counted id that is neither on the
  transcript nor a number cannot be printed.
- C132: `--print-path` with the path of a requirement inside another requirement shows nothing of it: the outer one is cut.
- C134: an incomplete course that is not flagged as in progress meets its rule and is shown as not finished.
- C135: `--claimed` fails when two claimed rows of one offering differ in whether a section is known.
- C136, C137: rules below a conditional are not looked at; nor are assertions of counts and the key `attribute`.
- C138: deleting one stale course number deletes every course number of its area until the next run.
- C139: an area with a query that has an assertion, or with a conditional, cannot be exported as a table (KeyError).
- C140: a requirement directly over a course shows the course, and the spreadsheet colours it as done, although it was not taken.
- C141: in the spreadsheet a course that was not passed moves the later values of its row one column to the left;
  the comma-separated table is refused if the first student lacks a course that another has passed.
- C143: an audit that raises or runs out of time with the new version is not listed by a comparison, nor one that was slow with the old version.
- C144: `baseline --copy` deletes the baseline and then always fails; a batch that fails has deleted the results it was to replace.
- C145, C146: a stored course has lost its hidden S/U grade, so a clause about grades may judge it otherwise; also its meeting and whether it
  is in progress now or later.
- C116: instruments separated by a comma without a space are read as one instrument.
- C117: a catalog that is null, unlike any text, makes the load fail.
- C123: "limits are not allowed to have conditional clauses" tests the truth of an object and never
  fails; such limits are accepted, and the branch is chosen once when they are read.
- C124: a limit stated twice in the same way shares one counter, so each course counts twice and
  "at most 1" allows none.
- C125: a fraction without a unit loses its fraction (1.5 becomes 1 course). An explicit null under
  "at most" hides an amount under another spelling of the key.
- C51: two workers that store results of the same student and area at once leave two active
  results; waiting for the row of an earlier active result does not help, as the second worker
  looks for active results before the first commits.
- C52: a worker stopped between the commit of a failure and its log entry loses the item without a
  trace. If building the parameters of the INSERT raises, the old results are already deleted and
  deactivated and that is committed. After a failing statement the COMMIT is a ROLLBACK: the item
  is logged as failed and stays, and is taken again and again before items of lower priority. An
  item of an unknown area is removed with the next item only, and comes back if that one fails.
- C54: an item that arrives between the first look at the queue and LISTEN is not noticed, nor is
  one that a stopped worker gives back after the others have looked.
- C55: a result equal to the newest one replaces it under the same revision, and after expiry
  revisions go down.
- C56: expiry keeps the newest result, not the active one: a later link-only result lets the
  active one be removed.
- C57: a student who raises midway has rows inserted that the next student's commit makes
  permanent, uncounted; a failing statement turns the commit of another thread into a rollback
  whose rows are counted; what is queued while the batch runs is queued again.
- C147, C148: "1.5s" is read as five seconds, a number at the end without a unit and years are dropped, long words count
  nothing; `--min` without a value is zero, so that no audit is run.
- C150: the index does not read changed files again, and adds files that are not named by their student (or have no area) on every run.
- C151: an area read from the table has text keys only, so that it may differ from the same file parsed.
- C152: at the top "some of" looks for the number asked for among the children that compete with each other only, though the others
  are solved already (`dp/rule/count.py:227-299`, `376-470`): two of a, y, z may be met and not be found.
- C153: among results that are not complete the rank decides (`dp/solve.py:26-48`), so that an option with classes under way that
  passes loses to one that does not pass but has more partial credit.
- C155: in a major the classes used are chosen before the common block looks at them (`dp/area.py:296-346`), and a child that competes
  with none takes its first complete solution only. A student with A 1 (S/U), B 1 and C 1 (S/U) fails a B.A. major asking for A 1 or
  B 1, and C 1; without A 1 they pass.
- C177: in a major a waived rule uses no class, so that fewer credits count toward the major and "Credits at a C or higher"
  (`dp/area.py:438-460`, six credits) can fail: a passed major is no longer passed after a waiver. `further_waivers_never_hurt_refuted`;
  other areas stay passed (`further_waivers_do_not_hurt_an_area`).
- C155, C176: when the credits reach a limit `check` lets nothing more through, not even a class worth no credits
  (`dp/limit.py:166-183`), and when all classes under a credit limit fit nothing less than all is tried (`dp/limit.py:100-110`). A class
  worth no credits can so leave nothing to try, and the area without any result, if it comes last in the order of the set.
- C156: the common block of a major is built without looking at the exceptions (`dp/area.py:296-346`): a waiver aimed at
  `$ > %Common Requirements` or its list is ignored.
- C158: a setting whose value has an equals sign (a database URL with options) makes the reader refuse the whole file.
- C159: more than one empty line between two paragraphs of a message gives an empty `<p></p>`.
- C162: the testbed looks at the clock when a message comes (`dp/testbed/audit.py:46-67`), that is before the first audit and after every
  1000 that are not complete; audits of fewer solutions are never cut short.
- C163: with `--print-all` and a first solution that is complete nothing is printed, and the exit code is 0. The branch of `result_str` for
  `--gpa` is never reached: `run` prints the GPA of the transcript.
- C164: `dp/testbed/render.py` loads the student without the exceptions, so that classes are shown with the subjects and credits they had.
- C165: `dp/server/cli.py` reads `--link-only` and passes `link_only=True` in any case: no result stored by it is active.
- C166: `dp/bin/validate.py` ends with exit code 0 whatever it found.
- C167: the validator loads a specification for nobody, without templates. A requirement used only by those who have not taken a course, a
  hidden child of `both` and an emphasis without `all` are accepted and refused for students; the reverse happens as well.
- C169: `dp/bin/batch.py` ends at the first row that cannot be audited (a missing file is not even caught); the rows after it are not audited.
- C170: a child of the top rule that has no class in common with the others is solved on its own and its first complete solution is kept
  (`dp/rule/count.py:374-470`); the common block is audited afterwards (`dp/area.py:111-225`) and has no say in the choice. A B.A. major may
  so fail for two classes that are not graded although a graded one would have done.
- C171: a what-if row does not set `link_only`. If the table's default is false (it is not in the repository), its result replaces the
  active one.
- C172: one run may hold two results of a student and area, and then cannot be fetched at all; `--clear` has deleted the old rows by then.
  `--latest` fetches what is active, of whatever run.
- C173: `extract` takes a catalog and ignores it. `invoke` names the file of the catalog although the server falls back to earlier ones.
- C175: `dp/bin/print.py` loads classes without the current term and without exceptions, and does not renumber two classes of one id:
  classes under way are marked `[ip?]`, changed subjects are undone, and of two classes of one id the last is shown for the first.
- C180: a class that a query matches and that is also inserted there by force is in its data twice and claimed twice, so its credits
  count twice: one class of one credit passes "at least two credits". The same where the query shares its classes.
- C181: the same at assertions: a class that is given and also inserted at the assertion counts its credits twice. A block removes one
  occurrence only, so a class that is given, inserted and blocked still counts.
- C182: an exception beneath a part that names no part itself (a mistyped path) makes the search take the part up: a query that asks
  for no class at all turns from empty to done. A forced insertion whose path names nothing still takes its class out of the limits of
  the area, which can turn a failure into a pass.
