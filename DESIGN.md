# Design of the Rocq model of akazachk/vpc

## Layout
* `rocq/theories/Prelude.v` – mathematical vocabulary (rational sums, packed vectors).
* `rocq/theories/Model/*.v` – executable model, one definition per C++ function (or per
  loop of a long function), each citing `file:lines` in /repo and stating simplifications.
* `rocq/theories/Spec/*.v` – small specifications that do not mention the model.
* `rocq/theories/Proofs/*.v` – lemmas.
* `rocq/theories/Properties/Cnn_*.v` – the theorems for property Cnn, with
  `Print Assumptions` and non-vacuity `Example`s beside them.

## Modelling conventions
* `double` is modelled by exact rationals `Q` (`==` is equality of values). Where a square
  root is taken, by `R`. Where a claim is about rounding itself, by IEEE binary64 through the
  standard library's executable `SpecFloat`. So validity theorems are about exact arithmetic:
  "the algorithm is right", not "the floating-point program is right".
* `int` is `nat`/`Z`; overflow is written explicitly where a claim is about it.
* External solvers (Clp, Cbc, CoinUtils) are oracles: an LP answer is an argument of the
  model function; the contract it is assumed to satisfy is a hypothesis of the theorem.
* Undefined behaviour, `exit(1)`, failed `assert`, uncaught exception and non-termination are
  distinct outcomes (`None`, constructors of an outcome type, or fuel exhaustion).
* A property that the code violates is stated at full strength as `..._refuted` (a witness),
  and next to it the strongest true version, whose extra hypothesis is the finding.

## Trusted base
1. Coq 8.16.1's kernel (`coqc`; re-checkable with `coqchk`). `vm_compute` is used in `Example`s and in
   `_refuted` witnesses (the kernel's bytecode evaluator); no `native_compute`, no plugin, no `Admitted`.
2. Axioms. `ASSUMPTIONS.md` records what `Print Assumptions` lists for every theorem of
   `rocq/theories/Properties` (the same command follows each theorem in its file). All are *closed under the
   global context* except those of C15 and C32 about real numbers (square roots), which depend on the standard
   library's `ClassicalDedekindReals.sig_not_dec`, `ClassicalDedekindReals.sig_forall_dec` and
   `FunctionalExtensionality.functional_extensionality_dep`. No axiom of our own, none from another library.
3. The reading of /repo: each definition in `Model/` cites the lines it models and its simplifications.
4. Contracts of external code (Clp, Cbc, CoinUtils, the clock): an answer of a solver is an argument of the model
   function; what is assumed about it is a hypothesis of the theorem, and an `Example` beside the theorem meets it.
5. Exact arithmetic: `double` is `Q` (or `R` under a square root) unless a theorem speaks of `SpecFloat`;
   rounding inside long computations is not modelled.

## What is modelled and what is not
| file | modelled | not modelled |
|---|---|---|
| include/common/utility.hpp | tolerance tests, comparators, statistics | - |
| src/utility/utility.cpp | 19-717 (parsing, file names, statistics, printing them, dot products, vector sums, objective-value and solution files) | - |
| include/common/TimeStats.hpp | all | - |
| include/VPCParameters.hpp | 51-765 (tables, by-name access, domains, reading, option bits) and 844-902 (printing, C82) | a string value with a NUL character in it |
| src/utility/SolverHelper.cpp | 8-82, 106-175 (C85), 181-258, 270-512 (C66), 515-801 (see C44-C46, C54) | - |
| src/utility/nbspace.cpp | 21-587, 656-741 | debugging output |
| src/utility/VPCSolverInterface.cpp | 17-199, 217-275, 305-358 | writing files |
| src/utility/preprocess.cpp | 60-272 (performCleaning), 278-425 (cleanProblem), 428-549 (header) | what presolvers and MPS writers put into files |
| src/cut/CglVPC.cpp | 36-1704: copying, parameters, generateCuts, preparation of the disjunction, problem data, point-ray collection, PRLP loop, bookkeeping, limits | log text |
| src/cut/CutHelper.cpp | 19-484 | - |
| src/cut/PRLP.cpp | 17-57 (copying, C84), 64-818 (C80: the solves), 902-1991 | - |
| src/disjunction/*.cpp | construction, copying and deletion of all classes (C83), Disjunction 117-477, SplitDisjunction 74-489, PartialBBDisjunction 97-463 | log levels |
| src/branch/*.cpp | CbcCompareBFS, CbcBranchStrongDecision 92-450, OsiChooseStrongCustom 34-797 (copies in C87), VPCEventHandler 37-1660 (190-282, the table of statistics, in C81; copying in C84) | fixing variables during strong branching; Cbc's own tree search: it is a history of events obeying `lawful` (Spec/TreeSpec.v) |
| src/test/BBHelper.cpp | 62-425 | the solvers themselves |
| src/test/GurobiHelper.cpp, CplexHelper.cpp, CbcHelper.cpp | settings, callbacks, cut hand-over, statuses, reports (C67, C68) | presolveModelWith*, the concert-technology CPLEX variant, messages |
| src/main.cpp | 182-377 (first solve, integrality check, reference solution, early ends), 379-834 (file with one line per round, loop over rounds), 884-891, 990-1056 (startUp, log file), 1058-1130 (wrapUp, log row), 1217-1305 (mode CUSTOM), 1306-2021 (processArgs, with getopt_long as documented for glibc) | condition numbers (switched off), host and processor lookups, messages and help text |
| src/test/analysis.cpp | 26-796 (header and rows of the log), 799-1142 (strength and branch-and-bound reports, C78), 1144-1199 (Gomory rounds), 1201-1419 (statistics) | number formats and padding of the log |
| src/utility/vpc_debug.cpp | 128-545 (drawings of the tree, C75) | printTree (a second search for a drawing), point printing, the files around the texts |
| src/utility/OsiProblemData.cpp | all (C58, C77) | - |
| src/test/DisjunctionHelper.cpp | all (C79) | - |
| src/test/condition_number.cpp | all (C76) | messages, memory not freed on early returns |
| src/utility/debug.cpp | all (C86) | - |

## Plan per property
| id | modelled | proof |
|---|---|---|
| C01 | depth-1 point-ray collection, PRLP rows, conversion of the solution to a structural cut | linear algebra: convex/conic combination argument per term, then covering of integer points |
| C02 | setCutFromNBCoefficients on a cobasis description | equality of affine functions by induction on the cobasis list |
| C03 | setCompNBCoorPoint | induction over the cobasis; spec = distance from bound |
| C04 | ray construction from tableau columns | the solver's tableau contract is a hypothesis; feasible point = vertex + sum of nonnegative multiples |
| C05 | checkVar / prepareDisjunction of SplitDisjunction with LP answers as oracle | floor/ceil reasoning |
| C06 | branch-and-bound tree as inductive history of branchings; leaves recorded by the event handler | invariant over histories: union of leaves covers root integer points |
| C07 | changedBounds + application in getSolverForTerm | pointwise on columns |
| C08 | getSolverForTerm as a transformation of an abstract LP | set equality of feasible sets |
| C09 | PRLP::setup row simplification | feasible set equality, refuted for duplicates |
| C10 | genDepth1PRCollection counts | induction |
| C11,C12 | isRowDifferent, howDuplicate | loop invariants over merged sparse rows |
| C13,C14,C16 | removeSmallCoefficients, cleanCut & filters, setOsiRowCut | induction over coefficients |
| C15 | getParallelism/getOrthogonality over R | Cauchy-Schwarz |
| C17-C21 | generator state machine: addCut, genCut, exitGenCut, limits | invariants over operation lists |
| C22 | row-bound save/restore around LP oracle calls | all exit paths, induction over candidates |
| C23,C24 | decision logic of generateCuts / prepareDisjunction | case analysis; refutations for user disjunctions and objectives |
| C25 | heap-of-objects model of the ownership flags | refutations by concrete API call sequences; invariants for the safe fragment |
| C26-C30 | Disjunction objects, splits, strategies, names | induction |
| C31-C38 | utility functions | induction over lists/strings |
| C39,C40 | TimeStats as a map of accumulators | refinement to a map from names to totals |
| C41-C43 | VPCParameters by-name access, domains, option bits | case analysis on the parameter table; bitwise lemmas |
| C44-C46 | SolverHelper predicates and objective updates | case analysis; merge induction |
| C47-C49 | branching decisions, node comparison, row ordering | argmax invariants; order axioms |
| C50 | cut conversions | round-trip; refuted for dense |
| C51 | cleanProblem bound updates | invariants over columns |
| C52,C53 | BBInfo aggregation, permutations | fold laws; refutation |
| C54 | applyCutsCustom | range lemma |
| C55 | composition of the models behind C01, C05, C06, C09, C16, C18, C21: a whole call | the invariant "every cut held is valid" through genCuts, userLoop, disjLoop, rootCuts |
| C56 | getProblemData / CglVPC::ProblemData over a basis and its tableau | loop invariant over the variables in index order; refutations by concrete tableaux |
| C57 | effect of generateCuts and of the disjunction on the caller's solver object | every write goes to a clone; refuted for the hot-start paths |
| C58 | VPCSolverInterface::load and its readers | columnwise case analysis |
| C59 | targetStrongAndDifferentCuts as a program over oracle answers that records what it tries; C59_PointCandidates: the candidates one search tries or skips | invariant over blocks and loops; the trace is characterised independently in Spec/ScheduleSpec.v |
| C60 | setObjectiveFromStructuralPoint, iterateDeepestCutPostGomory over oracle answers | induction over the iterations; list arithmetic for the column map |
| C61 | VPCSolverInterface as a state machine over sessions of calls | invariant "no point gained, no integer point lost"; reuses C55 for generated cuts |
| C62 | the loop over rounds of main.cpp with its four solvers, over oracle answers | induction over rounds with the contents of each solver as invariant; bounds by LP monotonicity (C54) |
| C63 | the statistics of analysis.cpp and the counting of mode CUSTOM | fold lemmas; labels from the bookkeeping of C17; refutations by concrete runs |
| C64 | header, category line and row of the log file, with the text of a line | each field matched with a separate name-to-meaning table; gap from C62's bounds, cut columns from C63 |
| C65 | processArgs with getopt_long, the rest of startUp | one event per option however written; induction over a list of settings; tables checked against a separate list of options |
| C66 | solveFromHotStart, checkSolverOptimality, enableFactorization and the probing loops, as histories of solver operations | the solver's answers are arbitrary functions of the history; bounds, hot start, factorization and deadline are read off the history by a separate specification; induction over lists of probes and calls |
| C67 | setStrategyForBBTest* of the three drivers, seeds, cut arrays, temporary files, cut check (BBHelper.cpp, GurobiHelper.cpp, CplexHelper.cpp, CbcHelper.cpp) | the driver's work as a list of calls; `final` (Spec/DriverSpec.v) reads off the last value of each parameter; options are bits |
| C68 | the callbacks and reports of the drivers, run on arbitrary lists of events | invariants by induction over the events; decompositions of the event list name the event a value comes from |
| C69 | performCleaning with the presolve drivers, its header and row (preprocess.cpp, GurobiHelper.cpp, CplexHelper.cpp) | files as a list of names with contents, presolvers and solvers arbitrary functions; a finished run is decomposed once, cleaning from C51, columns by a name-to-meaning relation (Spec/PreSpec.v) |
| C70 | main from start to end around the rounds: startUp with the log file, first solve, integrality check, reference solution, early ends, wrapUp, writeErrorToLog, kills (main.cpp) | one run maps an environment (arguments, solver answers, point of a kill) to an outcome and the tokens it appends; histories are lists of runs; `split_lines` (Spec/ProgramSpec.v) reads the file back; induction over the runs; rows from C64, start from C65 |
| C71 | prepareDisjunction, setCbcParametersForPartialBB, generatePartialBBTree (PartialBBDisjunction.cpp), the list of trees of mode DISJ_SET_PBB | the settings as a record of what Cbc was told; ends of a search as an inductive relation over the histories of C06 (Spec/SearchSpec.v); sizes from C28, coverage from C06 |
| C72 | getNumGomoryRounds (analysis.cpp 1144-1199) | loop with fuel over arbitrary generator and solver; a measure shows the fuel suffices, so the result does not depend on it; invariants by induction; values from C54/C62 |
| C73 | the file cutrounds and the timers around each round (main.cpp 379-819) | the loop of C62 with the file and the timers threaded through; `row_says` relates a line to a small description of the round (Spec/RoundSpec.v: optimum with the cuts, average of nonzeros, seconds); induction over the rounds, also for runs that end early |
| C74 | the node and beforeSolution2 events of VPCEventHandler::event (VPCEventHandler.cpp 566-848, 862-966) | what Cbc shows in an event as a record; sequences of events by induction with the cutoff as the decreasing quantity; the check of a solution by case analysis on rounding (Spec/IncumbentSpec.v); the lost solution as a history of C06 |
| C75 | generateTreePlotString, generateTikzTreeString (vpc_debug.cpp 128-545) and the numbers the handler keeps for them | the numbers run beside the handler of C06; searches carry a ghost list of branchings and a label for each node on Cbc's tree (Spec/DrawingSpec.v); an invariant relates statistics and ghost tree through branching, pruning, misjudged nodes and their repair; both texts are folds over the statistics shown to be the edges up to order |
| C76 | compute_condition_number and its two variants (condition_number.cpp) | the condition number by its meaning (Spec/CondSpec.v: growth of relative changes, attained); norm 1 by the column-sum norms of basis and inverse, norm 2 from the extremal property of singular values; the array filled for LAPACK by induction over the columns |
| C77 | ConvertCPX2Data (OsiProblemData.cpp 10-187) and the load of its result | the points of a CPLEX model by its manual (Spec/ConvertSpec.v); the column loop by induction (start, index, value are the columns' concatenation), then the theorem of C58 on the arrays |
| C78 | the report: analyzeStrength from line 914, analyzeBB, stringValue with a width | texts character by character with their buffers; printf's %g/%f and log10 are a record with contracts (Spec/ReportSpec.v; a concrete instance is proved to satisfy them); a line is read back by a small grammar of numbers; buffers shown not to truncate by length arithmetic |
| C79 | setDisjunctions (DisjunctionHelper.cpp), doCustomRoundOfCuts (main.cpp 1218-1303) | composition of the split generation of C27, the preparation of C71 and generateCuts; the round's loop by induction over the disjunctions |
| C80 | the first solve of PRLP::setup (354-417), PRLP::resolvePRLP (512-569), the limits left by genCut | histories of solver operations as in C66; a clock is a function of the history, with the contract that solves end at their deadline (Spec/TimeSpec.v; a concrete clock satisfies it and attains the bound); operations of one check by cases, then the rounds |
| C81 | printNodeStatistics (VPCEventHandler.cpp 190-282) | texts character by character; a small reader splits lines into words (Spec/TableSpec.v); every cell is blanks, a word, at least one blank; printf "%f" by the contract of C78 with a concrete instance |
| C82 | printParams, to_string, the tables of constants (VPCParameters.hpp 329-354, 418-485, 638-661, 844-902) | text character by character over any order of the maps; Spec/PrintSpec.v lists names, how a value is shown and the documentation of the twelve kinds, and splits text into fields and lines; printf "%.3e" by a contract (four digits, half a unit), with a concrete instance for a new object; reading back uses the reader of C41 |
| C83 | DisjunctiveTerm, Disjunction, DisjunctionSet, VPCDisjunction, SplitDisjunction, PartialBBDisjunction: constructors, copy, clone, operator=, setupAsNew, destructors, addDisjunction, look-up (Disjunction.cpp 15-132, 363-506 and the derived classes) | a heap of bases and tables of disjunctions and sets; commands of a program, vectors copying element-wise (with and without new memory); an ownership invariant (each basis one owner, each disjunction at most one set) kept by every command; views (Spec/CopySpec.v) compare what a user sees |
| C84 | VPCEventHandler: constructors, copy, clone, operator=, destructor, setOriginalSolver, initialize (321-375, 1022-1108); the handlers of generatePartialBBTree; copying of PRLP (17-57, 442-473) | cells for solvers and handlers, commands as in C83; an owner relation (handler or user) kept unique by every command; exhaustive releases under a condition on programs, and proofs that a dropped solver stays lost in every continuation |
| C85 | setTimeLimit, setLPSolverParameters, setupClpForStrongBranching, setupClpForCbc (SolverHelper.cpp 106-175), the same steps in PartialBBDisjunction.cpp 148-166, VPCSolverInterface::load (117-158) | a record of settings, sequences of calls, sets of options as bits of integers; "last call that asks" from the calls alone (Spec/SettingsSpec.v); induction over calls, bit arithmetic of + 256; loading by C45's equivalence |
| C86 | printVector (packed and dense), printVectors, printMatrix (debug.cpp 22-98), getStatNames, printStats (utility.cpp 19-43) | text character by character; a reader collects the pairs in parentheses (Spec/VecSpec.v) and splits lines; printf "%g", "%.10g" by a contract with a concrete instance; transposition of matrices element-wise |
| C87 | OsiChooseStrongCustom: constructors, copy, operator=, clone, destructor, copyOurStuff, resetResults, setupList and chooseVariable as calls on objects (178-260, 448-452, 580-797) | heap of result blocks against values without memory (Spec/ChooserSpec.v): simulation, ownership invariant; the choice itself is that of C47; pseudo-costs stay zero by induction |
| C88 | scaleCut (CutHelper.cpp 165-202), getRowTwoNorm (utility.cpp 636-646) | exact rationals, std::log10 cut to int as an argument with a contract (met by a constructed logarithm); extremes by induction over the loop; decades from C82; norm over storage with gaps |
| C89 | the pipeline of C55 with tolerances above 0 and an inexact PRLP solution (models of C01, C04, C13, C21) | error analysis: the weights of the rays are bounded by the movement over the scaling, so violations of ray rows add up to a bounded amount; refutation by a one-term disjunction whose point has a coordinate below EPS |
| C90 | the rounds of C62 with the generator calls of C55 in each, and the objective cut (Model/ObjectiveCut.v) | induction over the rounds for one point, with what the solvers hold as invariant; the calls are described in Spec/MainSpec.v without the helpers of the rounds |
| C91 | the files of the drawings as a map from names to texts (Model/TreeFiles.v) | induction over the trees of a run; the options by the bits of -t |
| C92 | the checks of stored objectives (Model/RootCheck.v, and those in Setup, Disjunction, NBSpace) | case analysis on signs and tolerances over the rationals, with the quotient multiplied out |
