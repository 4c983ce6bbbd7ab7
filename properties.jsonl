{"id": "C01", "title": "Every generated V-polyhedral cut is valid for every integer-feasible point", "statement": "If the disjunction given to the generator covers every integer-feasible point and each of its terms was solved to optimality, then every row that satisfies the point and ray constraints of the terms (for each point p: alpha.p >= beta, for each ray r: alpha.r >= 0) and is converted back to the original variables is satisfied by every integer-feasible solution; with the code's tolerances, by every such solution up to an explicit error bound. It is also satisfied by an integer solution found while the disjunction was built. (Refuted: when a feasible term's LP is not solved to proven optimality it is dropped silently, and when a leaf of the tree is represented by its integer solution only; then cuts can remove integer-feasible points.)", "quantifier": "every MIP instance, every disjunction, every point-ray collection, every PRLP solution, every integer-feasible point", "why_tests_cant": "tests sample a few instances and a few optimal points; validity quantifies over all feasible points of all instances", "anchors": ["src/cut/CglVPC.cpp: generateCuts, setupConstraints, genDepth1PRCollection", "src/cut/PRLP.cpp: setup, genCut", "src/utility/nbspace.cpp: setCutFromNBCoefficients"]}
{"id": "C02", "title": "Cut conversion from nonbasic to structural space preserves the cut", "statement": "The cut returned in the original variables has, at every point, exactly the same slack as the cut in the nonbasic coordinates (with a coefficient tolerance EPS: up to EPS times the 1-norm of the point), for nonbasic variables in the order the generator lists them, columns being at a bound. (Refuted: a column listed after a slack loses its accumulated coefficient; a free nonbasic column away from zero displaces the cut.)", "quantifier": "every cobasis (columns at lower or upper bound, L/G/E/R slacks), every coefficient vector, every point", "why_tests_cant": "a sign or shift error for one status combination only shows on particular bases; equality of two affine functions must hold at all points", "anchors": ["src/utility/nbspace.cpp:656-741 setCutFromNBCoefficients", "src/cut/CglVPC.cpp:694-865 getProblemData"]}
{"id": "C03", "title": "Nonbasic coordinates of a point are faithful", "statement": "The packed vector computed for a point that is feasible for the root LP lists, for each nonbasic variable, the nonnegative distance of the point from that variable's bound at the root LP optimum, omitting those below the tolerance and repeating none; the root optimum has the empty vector; the reduced-cost combination of the entries is the change of the objective, within the program's own check. (Refuted: the vector is sorted by index; the root optimum is the origin when a ranged row is tight at its lower side.)", "quantifier": "every point, every cobasis", "why_tests_cant": "the statement ranges over all points and all bases; tests see a handful", "anchors": ["src/utility/nbspace.cpp:21-197 setCompNBCoorPoint"]}
{"id": "C04", "title": "The point and rays collected for a term relax the term", "statement": "Every point feasible for a disjunctive term's LP is, in the nonbasic coordinates of the root, the collected vertex plus a nonnegative combination of the collected rays (exactly with zero tolerances, otherwise up to an explicit error); a ray is accepted only if its reduced cost agrees with its entries and is not negative. (Refuted when the term has a free nonbasic variable.)", "quantifier": "every term LP, every optimal basis, every feasible point of the term", "why_tests_cant": "infinite set of feasible points", "anchors": ["src/cut/CglVPC.cpp:1295-1437 genDepth1PRCollection", "src/utility/nbspace.cpp:203-417 setCompNBCoorRay"]}
{"id": "C05", "title": "A split disjunction covers all integer points and cuts off the fractional value", "statement": "Preparing a split disjunction either succeeds with two terms on one integer variable with fractional LP value, x<=floor and x>=ceil, which together contain every point with integral coordinates, are disjoint and exclude the LP value, or leaves no terms; bound changes recorded because one side is infeasible hold at every integer point. When no variable was given, the split is on a variable furthest from the integers among the integer variables at least AWAY from every integer that have a solution on both sides; 'no disjunction' is then reported exactly when there is no such fractional variable, and the program never ends because of its own choice of variable. (Refuted: that failure is reported as 'no disjunction', and that preparing twice replaces the first split: the terms pile up.)", "quantifier": "every LP value, every integer point, every feasibility answer of the side LPs", "why_tests_cant": "real-valued inputs; all integer points", "anchors": ["src/disjunction/SplitDisjunction.cpp:74-279 prepareDisjunction, checkVar"]}
{"id": "C06", "title": "The leaves recorded by the partial branch-and-bound tree cover the problem", "statement": "Whatever sequence of branchings, prunings, integer solutions and dropped nodes occurs before the partial branch-and-bound search is stopped, every integer point of the root box that no event gave up (a node pruned by infeasibility or bound, dropped by the solver, or a term whose LP was not solved) lies in some recorded term; when pruned nodes are kept, pruning gives nothing up. (Refuted: without these exceptions; and a node misjudged before the last save makes the save read outside the recorded tree.) The two bounds kept for the sides of the first branching are, within 1e-7, the least objectives of the terms recorded for that side, absent if there are none. (Refuted: the root's unexplored second branch is counted on its own side.)", "quantifier": "every branching history and every stopping point", "why_tests_cant": "schedules of branch and bound are unbounded and solver dependent", "anchors": ["src/branch/VPCEventHandler.cpp:428-985 event", "src/branch/VPCEventHandler.cpp:1252-1660 saveInformation, saveInformationFromStats"]}
{"id": "C07", "title": "Bound changes recorded for a term reproduce the node's box", "statement": "Each term written by the partial branch-and-bound search stands for an open branch of a node: applying the common bound changes and then the term's changes to the original bounds gives the bounds of that branch, up to the 1e-7 with which changes are detected, and exactly when bounds never move by less than that (integer bounds). (Refuted without this: a smaller move is not recorded.)", "quantifier": "every original box, every node box", "why_tests_cant": "all boxes, all dimensions", "anchors": ["src/branch/VPCEventHandler.cpp:283-312 changedBounds", "src/disjunction/Disjunction.cpp:138-258 getSolverForTerm"]}
{"id": "C08", "title": "A term's solver describes the term", "statement": "The solver returned for a term has exactly the points of the base problem that satisfy the common bound changes and the term's bound changes and inequalities - always when the changes are added as constraints, and when bounds are changed provided they only tighten; in every case no point of the term is lost. The root problem with common changes is described by the one-sided cuts announced for it. (Refuted: common inequalities are not included by the disjunction's own function; a looser bound replaces the problem's; the check of a term's saved objective accepts any value of opposite sign.)", "quantifier": "every base problem, every list of bound changes and inequalities", "why_tests_cant": "all problems and all terms", "anchors": ["src/disjunction/Disjunction.cpp:138-258 getSolverForTerm", "src/cut/CglVPC.cpp:867-1024 initializeSolverWithRootChanges", "src/cut/CglVPC.cpp:1026-1288 setupConstraints"]}
{"id": "C09", "title": "The point-ray LP is equivalent to the full constraint list", "statement": "Simplifying the point-ray constraints before solving (single-entry rows turned into bounds, near-duplicate rows removed, empty columns deleted) never loses a feasible cut and adds only cuts that violate a collected constraint by at most an explicit bound; when near-duplicates are genuine duplicates the feasible cuts are exactly the same. The set-up reports success, infeasibility or a time limit exactly when the solver does. (Refuted: of two parallel points the stronger can be dropped together with the weaker; the check for an impossible empty row has the wrong sign.)", "quantifier": "every list of point and ray constraints", "why_tests_cant": "all constraint lists, including parallel and duplicate rows", "anchors": ["src/cut/PRLP.cpp:64-420 setup"]}
{"id": "C10", "title": "Depth-1 point constraints use the rhs scale, ray constraints are homogeneous", "statement": "Each term solved to optimality contributes exactly one point constraint with the requested right-hand side scale and one constraint with right-hand side zero per collected ray, with the objective values recorded next to them; a term not solved to optimality contributes nothing.", "quantifier": "every term and every basis", "why_tests_cant": "all bases", "anchors": ["src/cut/CglVPC.cpp:1295-1437 genDepth1PRCollection"]}
{"id": "C11", "title": "Row comparison tells duplicates, dominance and difference apart", "statement": "Comparing two rows a.x>=b and c.x>=d returns 0 only if they are the same half-space up to tolerance, -1 only if the first is a positive multiple of the second with a tighter right-hand side, 1 for the converse; a positive multiple with the same support is never called different. (This needs right-hand sides not of opposite sign and coefficients of moderate size: refuted otherwise, e.g. x>=1 and x>=-1 are declared the same.)", "quantifier": "every pair of sparse rows", "why_tests_cant": "all real coefficient pairs", "anchors": ["src/cut/CutHelper.cpp:254-401 isRowDifferent"]}
{"id": "C12", "title": "Duplicate detection keeps the stronger cut", "statement": "A cut found to be a duplicate is discarded and the collection is unchanged, containing an approximate multiple of it; no produced cut is a positive multiple of another cut of the returned collection (root cuts apart); with a minimum orthogonality required, a cut is added only if it has it with every collected cut, and refused for this reason only if it lacks it with one. (Refuted: of two parallel cuts the stronger is kept - the newcomer is always the one thrown away; and inequalities taken from the root are not compared.)", "quantifier": "every collection and new cut", "why_tests_cant": "all cuts", "anchors": ["src/cut/CutHelper.cpp:461-484 howDuplicate", "src/cut/PRLP.cpp:638-759 genCutHelper"]}
{"id": "C13", "title": "Removing small coefficients keeps the cut valid", "statement": "Removing small coefficients yields a cut satisfied by every point within the variable bounds that satisfied the original cut (exactly with zero tolerance, else up to the contribution of the thrown-away entries), and every remaining coefficient is unchanged and either not small or on a variable whose bound cannot be used. (Refuted: that no small coefficient remains, and exact validity for a positive tolerance.)", "quantifier": "every cut, every bound vector, every point in the box", "why_tests_cant": "all points in the box", "anchors": ["src/cut/CutHelper.cpp:50-104 removeSmallCoefficients"]}
{"id": "C14", "title": "Cuts accepted by the cleaning filter meet the advertised numerical limits", "statement": "A cut accepted by the cleaning filter is the cleaned cut, has support at most the limit, is violated by the solution to be cut by the required amounts and has dynamism within the limit; a rejected one gets the error code of the first failing test, in the order support, violation, dynamism.", "quantifier": "every cut, parameter setting and solution", "why_tests_cant": "all cuts", "anchors": ["src/cut/CutHelper.cpp:112-234 badSupport, badViolation, badDynamism, scaleCut, cleanCut"]}
{"id": "C15", "title": "Parallelism and orthogonality measures", "statement": "Cut orthogonality is 1-cos of the angle between the rows: between 0 and 2, symmetric, unchanged by positive scaling, 0 exactly for positive multiples, 1 exactly for perpendicular rows and 2 exactly for negative multiples. (Refuted: the documented 1-|cos|.)", "quantifier": "every pair of nonzero rows", "why_tests_cant": "all vectors", "anchors": ["src/cut/CutHelper.cpp:406-456 getParallelism, getOrthogonality"]}
{"id": "C16", "title": "Building a row cut from a coefficient vector", "statement": "The row cut built from dense or packed coefficients has exactly the coefficients whose magnitude is at least the tolerance, under the names given, sorted, with the given lower bound.", "quantifier": "every coefficient vector", "why_tests_cant": "all vectors", "anchors": ["src/cut/CutHelper.cpp:19-36 setOsiRowCut"]}
{"id": "C17", "title": "Cut bookkeeping arrays stay aligned", "statement": "After a call on a fresh generator (or one started without cuts) there is exactly one type, heuristic and disjunction label per produced cut, the label tells where the cut came from, and the counters per type and heuristic add up to the number of cuts; statistics are never accessed out of range. (Refuted in repeated use: counters become negative, labels shift; a replaced cut keeps the label of the old disjunction.)", "quantifier": "every history of generated/failed/replaced cuts", "why_tests_cant": "histories are unbounded", "anchors": ["src/cut/CglVPC.cpp:561-591 addCut", "src/cut/PRLP.cpp:638-759 genCutHelper"]}
{"id": "C18", "title": "Objectives tried equal cuts plus failures", "statement": "At the end of objective trials the objectives tried are the cuts produced by them plus the failures; failures and objectives are also counted per heuristic; each failed objective is counted under its own reason and no other, and the program's own check never aborts it. (Refuted: the number of failures is the sum of the per-reason counters.)", "quantifier": "every sequence of PRLP outcomes", "why_tests_cant": "histories are unbounded", "anchors": ["src/cut/PRLP.cpp:577-818 genCut, exitGenCut", "src/cut/CglVPC.cpp:1560"]}
{"id": "C19", "title": "Cut limit is respected", "statement": "The number of cuts produced never exceeds the limit computed from CUTLIMIT (absolute if positive, multiple of the number of fractional variables if negative, none when zero) - in total for one disjunction, per disjunction (hence at most the product) for several. (Refuted for several disjunctions in repeated use.)", "quantifier": "every parameter value and every history", "why_tests_cant": "histories and parameter values unbounded", "anchors": ["src/cut/CglVPC.cpp:122-131 getCutLimit", "src/cut/CglVPC.cpp:1576-1600 reachedCutLimit"]}
{"id": "C20", "title": "Failure limit decision", "statement": "Generation stops for failures exactly under one of five conditions on the numbers of objectives, failures, cuts and the time used (stated with the exact double thresholds), never before 20 objectives unless the cut limit is below 5 or time is the reason, and more failures never undo it. (Refuted: two of the documented thresholds.)", "quantifier": "every count of cuts, failures, limits and parameters", "why_tests_cant": "all integer triples", "anchors": ["src/cut/CglVPC.cpp:1638-1685 reachedFailureLimit"]}
{"id": "C21", "title": "At most one cut per objective", "statement": "Each attempt to generate a cut leaves the collection unchanged, appends one cut, or overwrites one by a cut with fewer coefficients or larger effectiveness; cuts given to the call stay unless replacing them was allowed; every property shared by all inputs (validity) is shared by all cuts returned. (Refuted: a replacement may lose strength; an infeasible PRLP is never reported as such.)", "quantifier": "every state and PRLP outcome", "why_tests_cant": "all states", "anchors": ["src/cut/PRLP.cpp:577-759 genCut, genCutHelper"]}
{"id": "C22", "title": "Point tightness search restores the PRLP", "statement": "While searching cuts tight on a point, every solve after the first has the point's row as an equation (so its cuts are tight on the point) and, one at a time, a candidate as objective; on every exit path the PRLP has its original row bounds and an empty objective. (That every candidate is tried, and that a removed vector leaves the objective, are refuted.)", "quantifier": "every outcome sequence of the LP oracle", "why_tests_cant": "LP outcome sequences unbounded", "anchors": ["src/cut/PRLP.cpp:947-1322 findCutsTightOnPoint", "src/cut/PRLP.cpp:1328-1700 targetStrongAndDifferentCuts"]}
{"id": "C23", "title": "Exit reason reports why generation stopped", "statement": "The exit reason after a call tells why it ended: no disjunction wanted or possible, no time at the start, cut limit already reached (or no fractional variable), the disjunction's own status, a single optimality cut for an optimal solution, the cut limit reached by root cuts, or else what ended the last disjunction worked on (time, PRLP set-up, failure, cut limit, success), each with the observable condition that goes with it; reasons that end a call before cuts are generated return the given cuts unchanged. (Refuted: with several disjunctions the reasons of earlier ones are forgotten; a call that stops at once keeps the counters of the previous call.)", "quantifier": "every combination of limits and disjunction outcomes", "why_tests_cant": "combinatorial outcomes", "anchors": ["src/cut/CglVPC.cpp:36-47 matchStatus", "src/cut/CglVPC.cpp:235-556 generateCuts", "src/disjunction/PartialBBDisjunction.cpp:97-282 prepareDisjunction"]}
{"id": "C24", "title": "A disjunction or objectives supplied by the user are used", "statement": "REFUTED for every setting: a user who sets a disjunction (or user objectives) and calls generateCuts gets cuts from that disjunction (those objectives are tried). In fact a call with a user disjunction ends the program, user objectives are discarded before anything is solved, and a second call on the same generator ends the program.", "quantifier": "every user disjunction / objective list, every parameter setting", "why_tests_cant": "all histories of API calls", "anchors": ["src/cut/CglVPC.cpp:180-556 setDisjunction, setUserObjectives, generateCuts, setupAsNew"]}
{"id": "C25", "title": "Ownership: every owned object is released exactly once", "statement": "For any disciplined sequence of generator constructions, disjunction settings, assignments from non-owners, runs and destructions no object is freed twice, used after being freed, or dereferenced when null; every live disjunction has one owner and none is left at the end (PRLPs can be). The same for a solver-interface object that is never copied. Refuted: copying a generator or a solver interface, assigning from an owner, the solver interface's setDisjunction (always undefined), mixing a disjunction and a set under one ownership flag, two PRLPs.", "quantifier": "every finite sequence of API calls", "why_tests_cant": "memory errors depend on histories", "anchors": ["src/cut/CglVPC.cpp:133-215,636-688", "src/utility/VPCSolverInterface.cpp:60-135", "src/disjunction/Disjunction.cpp:360-434"]}
{"id": "C26", "title": "Disjunction terms are deep copies and best/worst objective values are maintained", "statement": "After any sequence of reported objective values a new disjunction's best/worst values are their minimum/maximum and nothing else changes; a set of disjunctions keeps as many entries as were added with correct best/worst summaries, also after preparing them. (Refuted: the summary of a set whose disjunction gets worse when prepared; split disjunctions never set best/worst values. Independence of clones is part of C25.)", "quantifier": "every list of terms", "why_tests_cant": "unbounded lists", "anchors": ["src/disjunction/Disjunction.cpp:260-356, 400-494"]}
{"id": "C27", "title": "Split generation returns the most promising splits", "statement": "The generated split disjunctions number at most DISJ_TERMS, are ordered by decreasing min(down,up) objective with none better left out, each has both sides feasible, and each contains every integer point. (Refuted: bound changes found on the way are kept.)", "quantifier": "every fractional solution and strong branching outcome", "why_tests_cant": "all outcomes", "anchors": ["src/disjunction/SplitDisjunction.cpp:316-489 generateSplitDisjunctions"]}
{"id": "C28", "title": "Retrying the partial tree makes progress", "statement": "The partial branch-and-bound search stops only after writing a disjunction with one term per recorded branch plus one for a saved integer solution, more than half of the requested number unless time is up (all of it when pruned nodes are kept); before that, the leaf count is below the maximum; preparing the disjunction after a stop never aborts on inconsistent counters and succeeds with at least two terms. (Refuted: the number of terms is at most the maximum.)", "quantifier": "every sequence of tree outcomes", "why_tests_cant": "unbounded retry sequences", "anchors": ["src/disjunction/PartialBBDisjunction.cpp:97-282", "src/branch/VPCEventHandler.cpp:1252-1495"]}
{"id": "C29", "title": "Branching strategy parameter decoding", "statement": "The decimal digits of the partial-tree strategy select node comparison, branching decision and choose-variable heuristics independently.", "quantifier": "every integer strategy", "why_tests_cant": "all integers", "anchors": ["src/disjunction/PartialBBDisjunction.cpp:304-319 getCbcStrategies"]}
{"id": "C30", "title": "Disjunction naming", "statement": "The textual description attached to a disjunction lists its terms in order, each in parentheses and separated by ' V ', with the inequalities of a term separated by '; '; integer data can be read back from it unambiguously, other numbers are printed to six decimals, a saved integer solution is named '(feasSol0)' in front of the other terms, and a split is described by its floor and ceiling sides. (Refuted: terms of a branch-and-bound disjunction with bounds changed above the branching get an unreadable description; a number just below an integer is printed one unit off; preparing a split object again appends to the old description; an integral number beyond int has no defined text.)", "quantifier": "every list of terms and inequalities, every number", "why_tests_cant": "unbounded lists of terms, all numbers", "anchors": ["src/disjunction/Disjunction.cpp:270-356 setCgsName", "src/disjunction/SplitDisjunction.cpp:281-299 setCgsName", "src/branch/VPCEventHandler.cpp:1122-1130"]}
{"id": "C31", "title": "Tolerance comparisons are consistent", "statement": "In exact arithmetic, for every tolerance eps>0 exactly one of lessThanVal, greaterThanVal, isVal holds; isInfinity/isNegInfinity recognise exactly the values within eps of the infinity passed or beyond it. (Refuted: isNegInfinity with its default argument accepts every value below 1e-7; on doubles of large magnitude a value is less than, equal to and greater than itself.)", "quantifier": "all reals and tolerances", "why_tests_cant": "all reals", "anchors": ["include/common/utility.hpp:206-250"]}
{"id": "C32", "title": "Incremental statistics equal batch statistics", "statement": "Statistics (average, deviation, min, max and their indices) updated incrementally over any split of the data equal the statistics of the whole data, for nonnegative data. (Refuted: the maximum of negative data; a negative previous size.)", "quantifier": "every data list and every way of splitting it", "why_tests_cant": "unbounded data", "anchors": ["src/utility/utility.cpp:45-155"]}
{"id": "C33", "title": "Dot products agree", "statement": "The dense, sparse-dense and sparse-sparse dot products (compensated or not) agree with the mathematical sum in exact arithmetic; sparse-sparse for sorted indices. (Refuted for unsorted ones.)", "quantifier": "all vectors", "why_tests_cant": "unbounded vectors", "anchors": ["src/utility/utility.cpp:560-640 dotProduct"]}
{"id": "C34", "title": "Linear combination of packed vectors", "statement": "The sum of two sorted packed vectors with multipliers is a sorted duplicate-free vector equal to mult1*v1+mult2*v2 up to the tolerance times max(1,|mult2|) per entry, exactly for tolerance zero; a vector with a negligible multiplier is dropped. (Refuted: with two negligible multipliers the output is left untouched; the error bound eps itself.)", "quantifier": "all sorted packed vectors and multipliers", "why_tests_cant": "unbounded vectors", "anchors": ["src/utility/utility.cpp:660-717 packedSortedVectorSum"]}
{"id": "C35", "title": "Number parsing accepts exactly numbers and reports failure otherwise", "statement": "parseLong and parseInt succeed exactly on optionally signed decimal numerals (after white space) that fit a long, and store the value (parseInt: if it fits an int); parseDouble succeeds exactly when strtod converts the whole text without one of three range-error values. (Refuted: values beyond int are accepted by parseInt and changed; overflowing doubles are accepted as infinite.)", "quantifier": "all strings", "why_tests_cant": "all strings", "anchors": ["src/utility/utility.cpp:340-390 parseInt, parseLong, parseDouble"]}
{"id": "C36", "title": "File name splitting", "statement": "parseFilename splits a path into directory, stub and extension so that joining them gives the path back, seeing through .gz/.bz2; it fails exactly without a usable dot. (Refuted for a dotted directory and a file name without extension.)", "quantifier": "all strings", "why_tests_cant": "all strings", "anchors": ["src/utility/utility.cpp:185-232 parseFilename"]}
{"id": "C37", "title": "Case conversion", "statement": "upper/lower casing is idempotent, length preserving, and the underscore-less variant makes parameter names compare equal iff they agree up to case and underscores.", "quantifier": "all strings", "why_tests_cant": "all strings", "anchors": ["src/utility/utility.cpp: lowerCaseString, upperCaseString, upperCaseStringNoUnderscore"]}
{"id": "C38", "title": "Reading objective values and solutions from files", "statement": "Looking up an instance in an objective-value file returns the value of the first line about it with a readable value, or the default when there is none; a solution file of comment and data lines gives the values in order. (Refuted: a line without a value terminates the program; an instance path without extension matches unnamed lines; two spaces make a value 0.)", "quantifier": "all files", "why_tests_cant": "all files", "anchors": ["src/utility/utility.cpp:235-335 getObjValueFromFile, getSolFromFile"]}
{"id": "C39", "title": "Timers accumulate exactly the started intervals", "statement": "For every history of timer calls that trips no assertion and every non-decreasing clock, a timer's total is its initial value plus what was added plus the time during which the last start/end addressed to it was a start; timers are independent; unknown names are reported as -1; the assertions fire exactly on a start of a running or an end of a stopped timer. (Refuted: looking up a name by id terminates; registering a name again keeps its time.)", "quantifier": "every history of timer calls", "why_tests_cant": "histories unbounded", "anchors": ["include/common/TimeStats.hpp"]}
{"id": "C40", "title": "Library routines bracket their timers", "statement": "Every execution of generateCuts and of each library routine that returns leaves the timers it started stopped, and never fails a timer assertion, so it can be called again. (Refuted: a split disjunction that finds no fractional variable returns with its timer running; the timer of the limit on collecting points and rays is never registered, so the limit never applies.)", "quantifier": "every outcome path", "why_tests_cant": "all control paths", "anchors": ["src/disjunction/SplitDisjunction.cpp:74-170", "src/cut/PRLP.cpp", "src/cut/CglVPC.cpp"]}
{"id": "C41", "title": "Parameters set by name are read back", "statement": "Setting a parameter through the API by its enumerator changes that parameter to that value and no other, and reading it back returns it; every parameter is always present; parameter names are distinct up to case and underscores; a parameter file is read to the end exactly when every non-empty line has a name and a value. (Refuted: setting by name, and so every line of a parameter file - whatever the name, CUTLIMIT is set to 0 or 1 and nothing else; a wrong number of disjunction options returns 0.)", "quantifier": "all names and values", "why_tests_cant": "all strings", "anchors": ["include/VPCParameters.hpp: set, get, readParams"]}
{"id": "C42", "title": "Parameter domains are enforced", "statement": "After any history of successful set calls an integer parameter lies in its declared range/allowed set, and a set call succeeds exactly when its value does; the same, up to 1e-7, for real parameters except INF and NaN, which every check lets through. (Refuted: NaN and INF; values described in the comments are rejected.)", "quantifier": "all values and histories of set calls", "why_tests_cant": "all values", "anchors": ["include/VPCParameters.hpp: Parameter, val_is_allowed, check"]}
{"id": "C43", "title": "Temporary option bits", "statement": "Enabling, disabling and testing option bits behaves like a finite set of options; a list of distinct branch-and-bound options yields the word with exactly these bits (a repeated option does not).", "quantifier": "all option words and option subsets", "why_tests_cant": "all words", "anchors": ["include/VPCParameters.hpp: use_temp_option, enable_temp_option, disable_temp_option, use_bb_option, get_bb_option_value"]}
{"id": "C44", "title": "Basis status predicates partition the variables", "statement": "For every column and row exactly one of basic / nonbasic-at-lower / nonbasic-at-upper / nonbasic-free holds (a superbasic one is none of them), slack sides are flipped with respect to the row's activity, and a fixed variable is on the side given by the sign of its reduced cost.", "quantifier": "all status words and dual signs", "why_tests_cant": "finite but includes real dual values", "anchors": ["src/utility/SolverHelper.cpp:570-801"]}
{"id": "C45", "title": "Maximisation problems are converted to equivalent minimisation problems", "statement": "After initialisation the solver is a minimisation problem with the same feasible set whose optimal solutions are those of the original and whose objective is its negation (problems with all-zero objective are the exception).", "quantifier": "all problems", "why_tests_cant": "all problems", "anchors": ["src/utility/SolverHelper.cpp:8-82 initializeSolver", "src/utility/OsiProblemData.cpp"]}
{"id": "C46", "title": "Objective updates from packed vectors", "statement": "Adding a packed vector times a multiplier to the objective changes each coefficient by its entry times the multiplier (over the documented scaling) and no other; with a sorted column map, column i changes by the entry of the mapped column. (Multipliers below 1e-7 erase instead; the scaling is by norm per column: both refuted as documented.)", "quantifier": "all vectors", "why_tests_cant": "all vectors", "anchors": ["src/utility/SolverHelper.cpp:185-233 addToObjectiveFromPackedVector"]}
{"id": "C47", "title": "Strong branching picks the best candidate", "statement": "The objects handed to strong branching are unsatisfied ones of the best priority, sorted by estimated merit, at most as many as asked for, and when the estimates are positive the best ones; the list never overflows. When no branch is infeasible and time does not run out, the variable chosen is the first of largest documented merit among the candidates evaluated (or the best of the others for the second-best methods), with the documented direction. A pass stops at the first object with an infeasible side (or when time is up), reports which, and the forced way is the feasible one; with a cutoff above the objective value the feasible way is also the direction chosen. Refuted: without a cutoff the infeasible side may be the direction chosen; a second-best object of an earlier call can be used; an object with one infeasible side replaces a better trusted one; when all pseudo-costs are trusted the first of the list is taken; with non-positive merits only one object is listed. With method 7 the search branches on the variables in their order: when each has at most two values left, no variable is branched on twice along a path, no path is longer than their number, and no assertion fails (refuted for general integer variables: overlapping branches, then an abort; and an infeasible node holding an integer-feasible old solution is reported as satisfied).", "quantifier": "every list of candidates and LP outcomes", "why_tests_cant": "all candidate lists", "anchors": ["src/branch/OsiChooseStrongCustom.cpp:237-445 setupList, 464-562, 582-630, 664-800 chooseVariable", "src/branch/CbcBranchStrongDecision.cpp"]}
{"id": "C48", "title": "Node comparison is a strict weak order and breadth-first", "statement": "Node comparison is irreflexive, transitive with transitive incomparability, so nodes are explored by depth.", "quantifier": "all pairs/triples of nodes", "why_tests_cant": "all triples", "anchors": ["src/branch/CbcCompareBFS.cpp:63-73"]}
{"id": "C49", "title": "Ray/constraint ordering is a strict weak order", "statement": "The orderings handed to sorting routines and sets are strict weak orders. True of the index and activity orders on arrays without NaN; refuted with NaN keys and for the ordering of rays, of which only irreflexivity and the order of well-separated rays hold; updating a ray keeps its minimum and mean.", "quantifier": "all triples of packed rows", "why_tests_cant": "all triples", "anchors": ["include/PRLP.hpp:98-109", "src/cut/PRLP.cpp:902-941 updateRaySet"]}
{"id": "C50", "title": "Cuts converted between representations are unchanged", "statement": "Converting cut pools between the row-cut container and sparse/dense arrays preserves coefficients and right-hand side: always for sparse arrays, exactly when all coefficients are integers for dense ones (which truncate); the direction of the inequality is not kept.", "quantifier": "all cut pools", "why_tests_cant": "all real coefficients", "anchors": ["src/utility/VPCSolverInterface.cpp:17-56 convertCutsToSparseCuts, convertCutsToDenseCuts"]}
{"id": "C51", "title": "Presolve cleaning preserves integer-feasible points", "statement": "Cleaning a minimisation problem never excludes an integer-feasible solution, gives up only when there is none, never ends with a bound looser than before (for a stored LP solution within the bounds), and reports 'clean' exactly when nothing changed. (Refuted: for a maximisation problem integer points are lost; with a stale LP solution a tightened bound is loosened again and a column counted several times; a bound found by strong branching can be overwritten.)", "quantifier": "all problems and LP answers", "why_tests_cant": "all integer points", "anchors": ["src/utility/preprocess.cpp:283-430 cleanProblem"]}
{"id": "C52", "title": "Aggregating branch-and-bound runs", "statement": "Over repeated branch-and-bound runs the best statistics are the smallest objective, counters and times and the largest bounds, the averages are the means (counters rounded towards zero), the first result is the first run, and the exported strings list the runs in order; the runs made are those named by the digits of BB_MODE, |BB_RUNS| times, none if cuts were asked for and not found. (Refuted: averages of a summary used twice; the number of cuts reported when Gomory cuts alone are added.)", "quantifier": "all lists of runs, all modes", "why_tests_cant": "all lists of runs", "anchors": ["src/test/BBHelper.cpp:60-126 runBBTests", "src/test/BBHelper.cpp:345-403 updateBestBBInfo, averageBBInfo, createStringFromBBInfoVec"]}
{"id": "C53", "title": "Row/column permutation used for repeated runs preserves the problem", "statement": "For a problem with as many columns as rows, every shuffle gives an instance with the same points and objective up to renaming of columns; its integer columns are the right ones exactly when the shuffle keeps the type of each column. (Refuted: mixed-integer problems; other shapes, where the column permutation is written out of bounds or loses columns; cuts handed to the permuted instance, which keep their original column numbers.)", "quantifier": "all problems and all random permutations", "why_tests_cant": "all permutations", "anchors": ["src/test/BBHelper.cpp:108-203 runBBTests"]}
{"id": "C54", "title": "Applying cuts reports the resulting bound", "statement": "Applying a range of cuts adds exactly these cuts and returns the LP value after them, which is not below the one before; infinity only when the solver did not finish (an infeasible result ends the program); querying the value with cuts leaves the problem as before.", "quantifier": "all pools and ranges", "why_tests_cant": "all pools", "anchors": ["src/utility/SolverHelper.cpp:450- applyCutsCustom"]}
{"id": "C55", "title": "A whole call returns only valid cuts", "statement": "Every cut returned by a generateCuts call working on split disjunctions, or on the disjunction written by the partial branch-and-bound tree, is satisfied by every integer-feasible point of the problem (for the tree: every one Cbc has not itself given up), provided the cuts handed in were; arithmetic is exact, every term is solved to optimality or proved infeasible, and the LP solver honours its contract.", "quantifier": "every problem, every branching history, every sequence of solver answers, objectives, limits and cut heuristics in the call, every integer-feasible point", "why_tests_cant": "composes the whole pipeline; a test observes one execution and a finite set of points", "anchors": ["src/cut/CglVPC.cpp:219-619 generateCuts", "src/cut/PRLP.cpp: setup, solve, genCut", "src/disjunction/SplitDisjunction.cpp", "src/branch/VPCEventHandler.cpp", "src/cut/CutHelper.cpp:50-104"]}
{"id": "C56", "title": "Basis data handed to cut generation describe the optimal tableau", "statement": "The problem data collected at a solved relaxation list every nonbasic variable exactly once, in increasing order (as many as there are columns); the nonbasic index is the inverse of that list; the row recorded for each variable is the tableau row it is basic in; the recorded reduced costs give the objective in the nonbasic space and are at least minus the tolerance (otherwise the program stops); the epsilon lies in (0, parameter].", "quantifier": "every problem, every basis and every tableau consistent with the LP", "why_tests_cant": "all bases of all problems; a test observes one basis", "anchors": ["src/cut/CglVPC.cpp:694-865 getProblemData", "include/CglVPC.hpp:138-163"]}
{"id": "C57", "title": "Generating cuts leaves the caller's problem alone", "statement": "generateCuts takes its solver as constant; the call does not change the caller's problem (rows, bounds, objective and sense). True of a minimisation problem; a maximisation problem is left with its objective negated.", "quantifier": "every problem and every call", "why_tests_cant": "all problems", "anchors": ["src/cut/CglVPC.cpp:219-260 generateCuts", "src/utility/SolverHelper.cpp:8-82"]}
{"id": "C58", "title": "Loading a problem from arrays", "statement": "A problem handed over as matrix, bounds, objective and variable types is solved as given - same feasible points, same integrality, same objective values - when binary columns come with bounds [0,1] and there is no objective offset. (Refuted: fixed binaries are freed, the offset is dropped, semi-integer columns become continuous.)", "quantifier": "all arrays", "why_tests_cant": "all problems", "anchors": ["src/utility/VPCSolverInterface.cpp:116-199 load"]}
{"id": "C59", "title": "Objectives tried during targeted cut generation", "statement": "For every sequence of solver answers, the objectives tried with the linear program that generates cuts are, in this order: all-ones, the bilinear heuristic, the best point, the other points, the unit vectors, the rays, then the points and the rays once more, each block only when its parameter asks for it and within its budget, never after a limit was reached, in the first pass never for a point, column or ray that was already tight, never again for a ray whose objective has failed, and always with exactly that objective (no remnants of earlier ones); the feasible region the cuts are taken from is the same after the call as before. While further cuts tight on a point are sought one candidate at a time, the candidates are gone through in order and one is skipped exactly if it was tight at an optimum found by an earlier solve of that search after its first. (Refuted: the last point is skipped in the first pass; the best point is never tried when the disjunctive lower bound is not used; with no points at all an element of an empty array is read.)", "quantifier": "every parameter setting and every sequence of solver answers", "why_tests_cant": "all answer sequences", "anchors": ["src/cut/PRLP.cpp:1332-1697 targetStrongAndDifferentCuts"]}
{"id": "C60", "title": "The post-Gomory bilinear heuristic", "statement": "However the solvers answer, the bilinear heuristic makes at most as many attempts as requested, none after a limit is reached, returns the number of cuts they produced, releases its solver exactly once and restores the presolve setting (or the program stops). In the nonbasic space both of its objectives are the point and the cut it is meant to use, up to a positive factor. (Refuted in the structural space: the objective from a point works exactly when the kept columns are the first ones, else memory is read out of bounds; columns that were dropped keep the objective of the previous pass.)", "quantifier": "every parameter setting and every sequence of solver answers", "why_tests_cant": "all answer sequences", "anchors": ["src/cut/PRLP.cpp:474-490 setObjectiveFromStructuralPoint", "src/cut/PRLP.cpp:1710-1991 iterateDeepestCutPostGomory"]}
{"id": "C61", "title": "Sessions with the solver interface", "statement": "After loading a problem, any sequence of solves, generations (of cuts valid for the problem at that moment) and applications of chosen stored cuts leaves a problem with the same columns and objective that has gained no point and lost no integer-feasible one, so its bound never gets worse and never passes the value of an integer-feasible point; applying cuts adds exactly the chosen ones. The same holds when all cuts come from generator calls on split disjunctions of the current problem. (Refuted: after loading a second problem, cuts stored for the first can still be applied; without clearing, cuts are applied again.)", "quantifier": "all sequences of calls, all problems, all masks of cuts", "why_tests_cant": "all sequences of calls", "anchors": ["src/utility/VPCSolverInterface.cpp:58-330", "include/VPCSolverInterface.hpp"]}
{"id": "C62", "title": "Rounds of cuts in the main program", "statement": "For every number of rounds, setting of GOMORY and behaviour of solvers and generators: which cuts each of the four solvers holds is determined by GOMORY alone; if each round's cuts are valid for the problem its generator was given, all cuts collected are valid for the original problem; the bounds reported never decrease from round to round, start at the LP value and are the optimal values of the problems with those cuts; the numbers of cuts reported are those collected; the loop stops only at its documented reasons. (Refuted: the 'round start' bound printed with GOMORY = -1; bounds after a solver was stopped by a limit; the disjunctive bound when no term was solved.)", "quantifier": "all numbers of rounds, all answers of solver and generators", "why_tests_cant": "all histories of rounds", "anchors": ["src/main.cpp:440-800 startUp..loop over rounds", "src/utility/SolverHelper.cpp:450- applyCutsCustom"]}
{"id": "C63", "title": "Statistics reported about cuts", "statement": "For every run of any number of rounds, the summary of cuts is true of all cuts of the run: their number, their numbers per type and per heuristic, how many are active at each solver's final solution in total and per heuristic, and their average support; the check against a known feasible solution counts exactly the cuts it violates by at least 1e-7, none for valid cuts. With a generator used repeatedly the counts are right if no call stops before it starts; shares of the cut limit add up to at most the limit. (Refuted: minimum and maximum support are never computed; in repeated use a call stopped by the time limit makes cuts count twice and labels be read out of bounds, and the running average is wrong; a generator that already has a disjunction, as in mode CUSTOM or in its second call, never adds a cut; no disjunction in mode CUSTOM makes empty arrays be read; a limit below the number of disjunctions gives no cuts; averages over several disjunctions are not averages.)", "quantifier": "all runs, all cuts, all solutions", "why_tests_cant": "all runs", "anchors": ["src/test/analysis.cpp:799-915 checkCutDensity, checkCutActivity, analyzeStrength", "src/test/analysis.cpp:1201-1419 updateDisjInfo, updateGMICInfo, updateCutInfo, setCutInfo", "src/main.cpp:1217-1305 doCustomRoundOfCuts"]}
{"id": "C64", "title": "The log file", "statement": "Every row of the log has exactly one field per name of the header and each field shows what its column's name says (bounds, gaps, branch-and-bound statistics, problem, disjunction and cut statistics, objectives and failures by kind); names that occur twice show the same; the category labels stand above the first column of their block; a reader splitting at commas gets the fields back if no field contains a comma. With lp < ip, the gap of a bound between them is the percentage of the way, between 0 and 100, and for runs with valid cuts VPCs, GMICs and all cuts have such gaps with all cuts closing at least as much as either. The sizes shown are those of the instance: its rows, columns, equality, bound and assignment rows, fixed, general, binary and continuous columns. Columns are counted once as continuous, binary or general; fractional ones are those at distance at least 1e-5 from the integers and the extremes are theirs. Cuts per heuristic add up to the number of cuts if an objective was tried. (Refuted: a comma in the instance name shifts all columns; a gap of 0/0 is shown as inf; the density product overflows; one-sided cuts are not shown by heuristic if no objective was tried; branch-and-bound columns show 0 instead of blanks when no run was made.)", "quantifier": "all parameters, all results of a run, all texts", "why_tests_cant": "all results", "anchors": ["src/test/analysis.cpp:26-796 printHeader..printCutInfo", "src/main.cpp:1037-1130 wrapUp", "include/utility.hpp:293-332 stringValue"]}
{"id": "C65", "title": "The command line", "statement": "For every command line: all the ways to write an option with a value (long name in full or abbreviated unambiguously, with '=' or as the next word; letter followed by or joined to the value) mean the same; an option sets its own parameter to the number or text written and changes nothing else, or the program exits when the value is not a number or not in the declared range; with several options the last one for a parameter counts and the others keep their values; the 0/1 switches cbc, cplex, gurobi, user_cuts, bb_all_cuts, bb_gmics and bb_strong_branching add and remove exactly their options; -B refuses a solver that is not built in; -h and mistakes stop the program; operands are ignored; the value of -i has precedence over the file of -o. (Refuted: numerals beyond int are taken modulo 2^32; --use_best_bound=0 turns it on; --bb_heuristics and --bb_presolve are swapped; --gurobi=1, --cplex=1 and the default are not checked against the build; negative --temp values lose options; --preprocess=0 overwrites other parameters; an instance missing in the file of optimal values gets the smallest double instead of an unknown value.)", "quantifier": "all command lines, all parameter objects, all builds", "why_tests_cant": "all command lines", "anchors": ["src/main.cpp:1306-2021 processArgs", "src/main.cpp:990-1036 startUp"]}
{"id": "C66", "title": "Re-solving and probing", "statement": "Whatever the LP solver answers: solving from a hot start returns whether the solver is optimal at the bounds the call was made with, leaves all bounds as they were and a properly used hot start marked at the original bounds, needs at most five solves, and counts exactly the hot starts that ran into the iteration limit; with one counter and limit MAX > 0 there are at most MAX+1 failures and no hot start once the limit is reached. Probing any list of variables (splits, cleaning, strong branching in the tree, whenever it stops) judges each side at the original bounds with that side's change alone and leaves bounds and hot start as found. The optimality check returns the solver's final status, ends the program only when asked to and for a dual infeasible problem, changes nothing but the solution, re-solves at most max+1 times (never if max <= 0), always with its deadline for Clp. Enabling the factorization leaves it on with at most one solve. (Refuted: the number of re-solves can exceed max; a factorization that was on may be off after the check; a dual infeasible problem may be returned as infeasible without ending the program; other solvers get no deadline, and enabling the factorization dereferences a null pointer; with limit 0 the hot start is marked at the changed bounds; callers start a new counter every time, so hot starts are never given up; with copies of the bounds strong branching does not restore them.)", "quantifier": "all histories of solver answers, all variables, bounds and limits", "why_tests_cant": "all histories of solver answers", "anchors": ["src/utility/SolverHelper.cpp:270-512 solveFromHotStart, checkSolverOptimality, enableFactorization", "src/disjunction/SplitDisjunction.cpp:184-250, 361-456", "src/utility/preprocess.cpp:310-347", "src/branch/OsiChooseStrongCustom.cpp:35-175"]}
{"id": "C67", "title": "What the solver drivers hand over", "statement": "For every strategy, bound, seed, verbosity and solution file: each option of the strategy sets exactly the solver parameters it stands for in Gurobi, CPLEX and Cbc, nothing else sets them, other options do nothing; the best bound is given only if it is not infinite; a start file is read exactly when the best bound is used and its name ends in one of the four endings for that solver; a run with user cuts has the user-cut option and otherwise the given ones. Random seeds of repeated runs are the multiples of the given one and differ. Cuts are handed over completely, in order and with their meaning (Gurobi one by one, CPLEX in arrays that decode to the cuts). A run on a copy keeps all other files; extensions are added once. The cut check warns exactly about cuts the solution violates by 1e-7 or more, hence about no valid cut. (Refuted: Cbc ignores heuristics and best bound; a negative strategy can run another solver; a seed of 2^30 ends the program in the second run; '<=' cuts are reversed; the temporary file is left behind; short names raise an exception; Gurobi's cut check ends the program when no solution was given.)", "quantifier": "all strategies, bounds, seeds, file names, cuts and points", "why_tests_cant": "all settings and cuts", "anchors": ["src/test/GurobiHelper.cpp:27-118, 270-288, 389-555", "src/test/CplexHelper.cpp:30-175, 788-845", "src/test/CbcHelper.cpp:31-82, 307-311", "src/test/BBHelper.cpp:126-316, 409-425"]}
{"id": "C68", "title": "What the solver drivers report", "statement": "For every sequence of callback events: Gurobi's root passes, times and iterations are those of the events at the root; the objective is the smallest reported, with the time it was first found; the cuts are handed over once, at the first root pass if it was solved; the LP value and the values of first and last cut pass are those of the first, second and last solved pass, of the first bound after the only pass, or of the last bound at the root, and never decrease if the events' values do not. CPLEX: the passes are the cut loops at the root, the objective is the last incumbent within 1e-7, the last value is the bound at the end of the cut loop, the first that of the first event after one loop or at the end. Cbc: the rounds of cuts at the root, with the bounds at the second and the last one. The model is solved twice exactly when the status is ambiguous and presolve on, and infeasible or unbounded runs end the program; a solution is handed back only with the reported objective. (Refuted: cuts are never handed over when the first pass was not solved; the comment about the only pass; CPLEX reports -infinity when the cut loop does not end, objective 0 without a solution and time 0 for a first solution of value 0; a Cbc run with cuts ends the program; with no round but nodes an uninitialised value is reported; the file overload ignores the file name.)", "quantifier": "all sequences of events, all statuses", "why_tests_cant": "all sequences of events", "anchors": ["src/test/GurobiHelper.cpp:123-318, 389-555 GurobiUserCutCallback", "src/test/CplexHelper.cpp:224-387, 638-723, 826-845", "src/test/CbcHelper.cpp:84-250, 351-386"]}
{"id": "C69", "title": "The preprocessing run", "statement": "For every instance, presolver, solver and file system, a run with --preprocess that ends normally: the cleaned problem has the rows, columns, integer columns and objective of the presolved problem in minimisation form (negating a maximisation problem keeps its points and negates their values), keeps every integer point of it, touches no bound with mode 1 and loosens none otherwise; the original instance is tested from its own file, the cleaned one from the file it was saved to exactly if it has a nonzero entry and something changed, and their columns show those results (the original's results again if nothing changed, the known optimal value and no results if the problem is empty); nothing changed means: as many rows, columns and nonzeros, right-hand sides and column bounds within 1e-7, no bound changed by the cleaning; the cleaned problem is in the file named _cleaned.mps.gz and the presolved file is gone, or the presolved one in _presolved.mps.gz; other files stay; each field of the row up to the versions shows what the header says; without a log file the run ends before doing anything. (Refuted: a changed coefficient, objective or lower side of a two-sided row is not noticed; asked for disjunctive terms, no test is run; with neither Gurobi nor CPLEX an empty problem is 'cleaned'; the start solution of the cleaned instance is never renamed; the temporary file stays; the last columns show host and processor under the names of others, and the last two labels stand over wrong columns.)", "quantifier": "all instances, presolve results, solver answers, parameters and file systems", "why_tests_cant": "all instances and answers", "anchors": ["src/utility/preprocess.cpp:60-272 performCleaning", "src/utility/preprocess.cpp:428-549 printPreprocessingHeader", "src/test/GurobiHelper.cpp:314-377", "src/test/CplexHelper.cpp:372-551", "src/main.cpp:1064-1129"]}
{"id": "C70", "title": "The executable and its log file", "statement": "For every run: the exit code is 0 exactly if the run did its work, 1 if it failed; it stops before any cut exactly if every integer column of the first solution is an integer up to AWAY, then reports the relaxation's value as optimal value, which is the optimum if the solution is exactly integral; otherwise a known optimal value is kept and an unknown one, when a reference solution was asked for, becomes that solution's value. For every sequence of runs in the cut mode on one log file, none killed: two lines of names, then one line per run in order, the row of a finished run showing under each name what the name says, that of a failing run ending with its message; whatever runs follow, complete lines stay as they are. Refuted: the reported optimum with the tolerance (0.001); the reference value with a constant in the objective; the reference with any further TEMP option; a wrong number of DISJ_OPTIONS ending the run (with a log file the run goes on and writes to a closed file); the total time in an early row; the log after a killed run, after a failure to read the optimal values, with preprocessing and cut runs mixed, and with two runs at once.", "quantifier": "all environments, parameters, first solutions and histories of runs on one log file", "why_tests_cant": "all runs and histories of runs", "anchors": ["src/main.cpp:182-377 main", "src/main.cpp:899-1056 startUp", "src/main.cpp:1058-1216 wrapUp", "include/common/utility.hpp:141-146 writeErrorToLog", "include/VPCParameters.hpp:770-800 parseDisjOptions"]}
{"id": "C71", "title": "Preparing a partial branch-and-bound tree", "statement": "For every parameter object, number of columns and strategy: Cbc is given the node comparison, branching decision and choose method of the strategy's digits, as many strong-branching candidates as asked for (-1: number of columns, -2: its square root rounded up, others below 0: Cbc's default), no presolve, no cuts and no time limit, and the handler the limits of the parameters. For every course of the search: fewer than two terms requested changes nothing; otherwise the preparation never ends the program and reports success exactly if the handler stopped the search with at least two terms (which then cover every integer point the search did not give up), an optimal solution exactly if Cbc proved one (its value is best, worst and integer objective), too few terms or unknown otherwise. In mode DISJ_SET_PBB there is one tree per number, differing only in the number of terms, if all numbers are at least 2; the reason reported is 'optimal' if one tree found an optimum, else that of the last tree. (Refuted: a failed preparation leaves no terms; preparing again discards the old disjunction; hot-start limit lifted; digit 5 'objective_reverse'; the choose method with tens digit 3; Clp's flag 256 is added, not set; another solver class is reported; drawing the tree with TRACE reports success for everything; numbers below 2 are dropped (undefined behaviour); success of a set means success of all trees.)", "quantifier": "all parameters, problems and courses of the search", "why_tests_cant": "all courses of the search", "anchors": ["src/disjunction/PartialBBDisjunction.cpp:97-282 prepareDisjunction", "src/disjunction/PartialBBDisjunction.cpp:304-463 getCbcStrategies, setCbcParametersForPartialBB, generatePartialBBTree", "src/cut/CglVPC.cpp:315-341", "src/disjunction/Disjunction.cpp:436-452"]}
{"id": "C72", "title": "Rounds of Gomory cuts until the bound of other cuts", "statement": "For every solver and generator, a call of getNumGomoryRounds ends after at most as many rounds as rows were added to the other solver (at least 2 with STRENGTHEN = 2), for one of four reasons: the target is met up to 1e-7 or as many cuts were generated as the other solver has; no cut was found; the last round did not improve the bound; from the fifth round on, the last three rounds improved it by no more than 1e-3; every round before did improve it by 1e-7. With a truthful LP solver and valid cuts the number returned is the optimal value with the generated cuts added, at least the value of the relaxation and at most that of every point the cuts are valid for; the program is not ended if the solver always finishes. (Refuted: at most 1000 rounds; the number returned is a number of rounds; rounds are made until the bound is met - with a target that is not positive there is none.)", "quantifier": "all relaxations, cut generators, solver answers and targets", "why_tests_cant": "all answers and numbers of rounds", "anchors": ["src/test/analysis.cpp:1144-1199 getNumGomoryRounds", "include/test/analysis.hpp:136"]}
{"id": "C73", "title": "The file with one line per round of cuts", "statement": "For every run (modes other than CUSTOM): the file is written exactly if bit 4 of TEMP is set, and writing it changes nothing in the rounds. It has a line with 16 names, a line for round 0 (three times the relaxation's value, no cuts, the time of the first solve) and one line for every completed round in order, also when the program ends with an error in a later round; every line has as many cells as there are names, and under each name stands what it says: the number of the round; the optimal value with all Gomory cuts, all VPCs, all cuts so far (infinite for Gomory cuts when GOMORY = 0); the numbers of this round's cuts; their average number of nonzero coefficients in percent of the columns; the seconds spent generating and applying each kind in this round. The columns for generating Gomory cuts and generating and applying VPCs add up to the totals in the log file. No assert of the timers fails. The file is in the log file's directory, and different instances or term limits have different files there. Refuted: minimum and maximum density are never the cuts' (always those of 2147483647 and of no coefficients); without a log file all instances share one file name; a log file name without a dot puts the file into the root directory.", "quantifier": "all runs, solver answers, cuts, clocks and file names", "why_tests_cant": "all numbers of rounds and answers", "anchors": ["src/main.cpp:379-457 (opening, names, round 0)", "src/main.cpp:459-520, 541-697 (times)", "src/main.cpp:742-819 (line of a round)"]}
{"id": "C74", "title": "Integer solutions met while building a partial tree", "statement": "For every sequence of events of a tree search: the integer solution kept for the disjunction is one that Cbc announced, with its objective, below the cutoff at that time; it is never lost and only replaced by a strictly better one (if Cbc's cutoff follows the solutions it finds). An announced improving solution is kept exactly if the current node's bound lies between the new and the old cutoff, or (nodes without a branching object) if it is the choose method's. When a node is recorded as pruned with an integer solution, the objective recorded is that of a point inside the original column bounds, integer where required, within 2e-7 of the solution in every coordinate; a node that Cbc keeps is recorded as created exactly if the solver is not infeasible and the handler has not marked it. Refuted: the constraints are checked as well (they never influence the outcome, so an infeasible point is accepted); infeasible nodes are not recorded as integer ones; every improving solution found is in the disjunction; a solution is saved whenever a node is marked as pruned by integrality (otherwise an empty vector is read).", "quantifier": "all sequences of solution and tree events, all nodes, points, bounds, rows, objectives and cutoffs", "why_tests_cant": "all histories of a search and all points", "anchors": ["src/branch/VPCEventHandler.cpp:566-848 (node event)", "src/branch/VPCEventHandler.cpp:862-966 (beforeSolution2)", "include/VPCEventHandler.hpp:75-77, 176-206"]}
{"id": "C75", "title": "Drawings of the partial tree", "statement": "For every search (any events Cbc sends, any node counts that grow with every branching) that ends at its first attempt to save: the text for TreePlot lists exactly the branchings that took place - from the parent's node count to the child's, labelled with the variable branched on, an X at pruned children - and one edge for every branch still open, to numbers that follow; together they form a tree with root 0 (parents explored, with smaller numbers, one parent each, at most one child per side). If no integer solution was found during strong branching, the TikZ picture shows the same tree: down branches left, up branches right, explored, pruned and open children in their colours, nothing else, the variable at each edge; its text is produced (the recursion ends and stays inside its vectors), and the caption's numbers of nodes and of pruned and integer-feasible leafs are those of the tree. Once no active node is left, exactly the nodes without a child that were drawn as normal are drawn as pruned. Refuted: after a rejected attempt to save the leaves of that attempt are drawn instead of the last ones (a node with three children); an integer solution found during strong branching gets the number of an open leaf and shifts the variables drawn; the number of leafs in the caption is minus the parameter.", "quantifier": "all courses of the search, node counts, bounds and objective values", "why_tests_cant": "all histories of a search", "anchors": ["src/utility/vpc_debug.cpp:128-195 generateTreePlotString", "src/utility/vpc_debug.cpp:199-545 generateTikzTreeString", "src/branch/VPCEventHandler.cpp:439-565, 613-615, 830-832, 1303, 1548 (numbers of the nodes)"]}
{"id": "C76", "title": "Condition numbers of a basis", "statement": "For every nonsingular basis (with any solver order and signs of the basic variables): in norm 1, if some basic column has absolute sum at least 1 (every basic row has), and in norm 2 with at least one row and LAPACK succeeding, the number reported is the condition number of the linear system of the basis: relative changes of the right-hand side grow by at most this factor in the solution, for some by exactly this factor; it is at least 1, and nothing is read or written outside the arrays. In norm 1 the number is never too small. For other norms, without a basis or when LAPACK fails 0 is reported. Refuted: the norm 1 number for a basis of small structural columns (too large); no rows in norm 2 (reads before the array).", "quantifier": "all matrices, bases, right-hand sides and changes of them", "why_tests_cant": "all real vectors and matrices", "anchors": ["src/test/condition_number.cpp:17-154"]}
{"id": "C77", "title": "A CPLEX model converted for Osi", "statement": "For every CPLEX model with at least one nonzero, rows of sense G, L or E and columns of type C, B or I (binary columns with bounds 0 and 1, numbers within CPLEX's infinity 1e20): the conversion returns 0, and the arrays it fills, loaded into a solver, give a problem to be minimised whose points are the model's points with entries of absolute value at most 1e20, and whose values are the model's times its sense, without its constant. Refuted: a column without bound keeps all its points (1e20 becomes its bound); the constant of the objective is kept; a ranged row is converted (1 is returned, but the data hold row bounds that were never written); 0 means converted (a model without nonzeros: nothing is written; a model without integer columns: the types were never written); semi-continuous columns.", "quantifier": "all models and points", "why_tests_cant": "all sizes, matrices and numbers", "anchors": ["src/utility/OsiProblemData.cpp:10-187 ConvertCPX2Data, MemSetProbData", "src/utility/VPCSolverInterface.cpp:174-199 load"]}
{"id": "C78", "title": "The report printed at the end of a run", "statement": "For every run whose bounds are infinite or of absolute value at most 1e100, where those that are known are all 0 or one has absolute value at least 0.0101: the report on cuts is its title and one complete line for every bound that is known (relaxation always, root, unstrengthened and strengthened Gomory cuts, VPCs if there are any, all cuts if there are Gomory cuts, disjunctive bounds, integer optimum), in this order, each with its name, its value to 8 decimals, and the numbers of cuts and of active cuts of each kind. The report on branch-and-bound is empty unless runs were made and a digit of BB_MODE asks for a kind with cuts that exist; otherwise it has a header and one row for every kind asked for, and under each title stands the average of that number over the runs, if all texts fit into 15 characters. Refuted: one line per bound in a run without disjunction (the root's bound is minus infinity, which counts as a number of 309 digits: the relaxation's line fills its buffer with blanks and loses its line break); the report for bounds of absolute value at most 0.01 (an argument of the format is missing: undefined behaviour); the bound with all cuts in a run with VPCs only; columns stay in place with values of 16 characters.", "quantifier": "all bounds, numbers of cuts, statistics and parameters", "why_tests_cant": "all values and combinations of known bounds", "anchors": ["src/test/analysis.cpp:914-1066 analyzeStrength", "src/test/analysis.cpp:1068-1142 analyzeBB", "include/common/utility.hpp:292-332 stringValue", "include/test/analysis.hpp:31-47"]}
{"id": "C79", "title": "Disjunctions set up outside the generator", "statement": "The function that sets up disjunctions for a caller, asked for splits, adds at most DISJ_TERMS disjunctions to the set; it reports success exactly if it added one; each has two terms, neither contains the relaxation's solution, and together they contain every integer-feasible point; it reports that there is no disjunction only if none was asked for or every fractional column has an infeasible side. Asked for a partial tree on an empty set it reports no disjunction exactly if fewer than two terms were requested (leaving the set alone), success only with at least two terms covering all integer points no discarded node contained, and an optimum exactly if Cbc proved one, which is then the set's integer solution and value; other modes end the program. Refuted, for the rounds of mode CUSTOM built on it: a round adds cuts (if it returns at all, pool and count are unchanged, for lack of a disjunction, time or cuts allowed; if each split may have a cut and time is left the program ends at the first split); the bounds reported for the disjunctions (splits have terms with values but no best or worst value: the largest double is reported); a tree that fails is not added to the set.", "quantifier": "all problems, solver answers, searches, limits and generators", "why_tests_cant": "all answers of the solver and all sequences of events of the search", "anchors": ["src/test/DisjunctionHelper.cpp:20-49 setDisjunctions", "src/main.cpp:1218-1303 doCustomRoundOfCuts", "src/disjunction/SplitDisjunction.cpp:316-489", "src/disjunction/PartialBBDisjunction.cpp:97-282"]}
{"id": "C80", "title": "Solving the point-ray LP: retries and time limits", "statement": "For every LP solver (any answers, depending on everything done to it before): one objective of the point-ray LP is solved with at least two and finitely many solves (initialSolve at most twice, the limit set at most 12 times, 39 operations), every one of them while the limit of the call is in force, without touching bounds or hot starts; the problem is solved anew only because of a suspicious objective value (not a number, or minus infinity), and such a value is never accepted without that; the value returned is 0 exactly if the LP is optimal at the end, else the code of its state. If the solver keeps to its limits, one objective takes at most 12 times its limit and a whole point-ray LP at most its first limit - the smaller of TIMELIMIT and the larger of 60 seconds and 10 PRLP_TIMELIMIT - plus that for each objective. The first solve succeeds exactly if the LP is optimal, otherwise the reason is infeasibility, time or numerical trouble and one failure counter grows. A PRLP_TIMELIMIT of -1 is replaced once, by the time of the very first solve, at least 5 seconds; a value that is set is kept. Refuted: one objective takes at most PRLP_TIMELIMIT (12 times that is possible); 0 means a proper objective value; with -1 the first solve is not limited, and later ones get half its time; each disjunction gets its own limit; values between -1 and 0 are limits; an infeasible LP is reported as such.", "quantifier": "all solvers, clocks, limits, objectives and sequences of point-ray LPs", "why_tests_cant": "all answers of the solver and all times it may take", "anchors": ["src/cut/PRLP.cpp:354-417 PRLP::setup", "src/cut/PRLP.cpp:512-569 PRLP::resolvePRLP", "src/cut/PRLP.cpp:577-636, 815-816", "src/utility/SolverHelper.cpp:349-476 checkSolverOptimality", "include/VPCParameters.hpp:111, 595-599, 657"]}
{"id": "C81", "title": "The table of node statistics can be read", "statement": "For all lists of nodes whose integers have at most eight digits and whose doubles are numbers or infinite, the table printed after a search is a header and one line per node, each with its only newline at the end; split at blanks, the header gives the fifteen titles, and every line gives exactly fifteen words, each saying what its title announces: the integers exactly, the direction, the doubles correct to half a unit of the last decimal (or 'inf'), the status. With bounds, each line is the same plus one column. Columns are aligned if the doubles have at most eight characters and the bounds have the same length as those of the first node. Refuted: alignment in general (the widths of the header are those of the first node only), and telling words apart for numbers of nine digits.", "quantifier": "all lists of nodes and numbers", "why_tests_cant": "all numbers and lengths of texts", "anchors": ["src/branch/VPCEventHandler.cpp:190-282 printNodeStatistics", "include/common/utility.hpp:292-332 stringValue", "include/VPCEventHandler.hpp:26-46"]}
{"id": "C82", "title": "The printed parameters say what the parameters are", "statement": "For every parameter object a program can hold and every order in which the maps are run through: of the twelve kinds of output, kinds 0 to 8 and 11 consist of exactly the documented entries, every parameter (constant) once, by its name in lower case, with its value - integers exactly, doubles to four digits, infinite ones as 'inf', strings as they are - names, values or both, each followed by the documented separator; other numbers, or no file, print nothing. The header line and the line of values, split at commas, have the name and the value of the same parameter in each column, if no string has a comma. The number of terms, below 100000, sorts as text. Refuted: header and values have the same number of fields (not with a comma in a string); constants with values one per line and their names separated by commas (kinds 9 and 10 have each other's separator); the file of all parameters can be read back (an empty string ends the program, otherwise only CUTLIMIT changes); a value can be recovered from the text (12345 is shown as another number).", "quantifier": "all parameter objects, values and orders of the maps", "why_tests_cant": "all values that can be set and all iteration orders", "anchors": ["include/VPCParameters.hpp:844-902 printParams", "include/VPCParameters.hpp:329-354, 418-447, 470-485 to_string", "include/common/utility.hpp:292-332 stringValue", "include/VPCParameters.hpp:638-661", "include/VPCParameters.hpp:803-841 readParams"]}
{"id": "C83", "title": "Copies of disjunctions and of sets of disjunctions", "statement": "For every program of constructions, copies, clones, assignments (also to itself), added terms, resets and deletions of disjunctions (splits and partial trees) and of sets of them, applied to objects that exist: nothing is undefined. A copy or clone, and the target of an assignment, has the same members and the same terms with the same bases as its source, except the parameters if others are given and the number of rounds of a tree, which is kept by assignment and never written in a copy; a reset object has the values of a new one, and keeps its parameters, timer and column. A copied or assigned set has copies of all disjunctions in order and the same values; adding a disjunction appends a copy with its position as id and updates the best, worst and integer values exactly if they improve. Copies are independent: nothing done to other objects, ever, changes what is seen of a disjunction or a set. No disjunction belongs to two sets or twice to one; every basis belongs to a term of an existing disjunction; if every object is deleted and no set was reset or assigned while it had members, nothing remains. Ids stay positions, and looking up by id and by position agree. Refuted: sets release their disjunctions (resetting or assigning to one with members loses them for ever); a negative position is rejected; the number of rounds is copied.", "quantifier": "all programs using disjunctions and sets of disjunctions", "why_tests_cant": "every history of copies, assignments, resets and deletions", "anchors": ["src/disjunction/Disjunction.cpp:15-132, 363-506", "src/disjunction/VPCDisjunction.cpp:17-66", "src/disjunction/SplitDisjunction.cpp:26-67, 165-181", "src/disjunction/PartialBBDisjunction.cpp:47-90", "include/Disjunction.hpp:28-240"]}
{"id": "C84", "title": "Copies of the event handler, and its solver", "statement": "For every program that constructs, copies, clones, assigns (also to itself), edits and deletes event handlers of partial trees, copies only handlers that were given a solver, and deletes the solvers handed to it: nothing is undefined. Copies (copy constructor, clone, the constructor with a model) and assigned handlers have all members of their source and an equal solver of their own, except the parent pointer, which is not written; a new handler, also from a model without one of this class, has no solver, bounds, statistics or limits but those given. Giving a solver stores a copy and its bounds and changes nothing else; the caller who asks for the old one gets a copy of it. Nothing done to other handlers or handed-out solvers changes a handler. Each solver in memory has at most one owner, exactly one if handlers are given a solver once and only empty ones are assigned to; then nothing is left when all handlers and handed-out solvers are deleted. The handlers used for one partial tree end with the search's results in Cbc's copy and leave nothing behind. Refuted: a second solver, or assignment to a handler with a solver (also itself), releases the first (it is lost for ever); handlers without a solver can be copied (undefined); solvers of another class are reported (undefined); a copy or clone of a point-ray LP has its rows (it has none, but the counts).", "quantifier": "all programs using event handlers, all solvers", "why_tests_cant": "every history of copies, assignments and deletions", "anchors": ["src/branch/VPCEventHandler.cpp:321-375, 1022-1108", "include/VPCEventHandler.hpp:78-212", "src/disjunction/PartialBBDisjunction.cpp:418-462", "src/cut/PRLP.cpp:23-57, 442-473"]}
{"id": "C85", "title": "Settings of the LP solver, and loading a file through the library", "statement": "For every sequence of calls setting a time limit, setting LP parameters, preparing for strong branching and preparing for branch and bound on one solver: the time limit and the hot-start limit in force are those of the last call that names one; messages are off if any call had verbosity 0 and otherwise unchanged; after any preparation the special options are exactly {16}; each preparation for branch and bound flips option 256 of the second set and never touches the lower ones; nothing is undefined exactly for OsiClp solvers while the second set remains an int. The solver the partial tree is grown with has option 256 on, all other options of that set as the user's, no presolve and the largest limits, if the user had 256 off. Loading a file through the library gives a problem read with a status that is not negative, minimising the same problem, and the same problem as the command-line program whenever that loads one. Refuted: verbosity 1 turns messages on again; preparing a solver switches option 256 on (a second time it is switched off, and a higher option changes); a solver of another class gives a message (undefined); a file with errors ends the program (the number of errors is positive and accepted); names without extension are rejected.", "quantifier": "all sequences of calls, all settings, all readers and file names", "why_tests_cant": "every sequence of calls", "anchors": ["src/utility/SolverHelper.cpp:106-175", "src/disjunction/PartialBBDisjunction.cpp:148-166", "src/utility/VPCSolverInterface.cpp:117-158"]}
{"id": "C86", "title": "Printed vectors, matrices and statistics can be read back", "statement": "For every packed vector, list of vectors, array, matrix (stored by rows or by columns) and vector of statistics, given a printf whose numbers are correct to its number of digits: the pairs (index, value) in the printed text are the entries in order, indices exact and values to six digits, on one line or on a line each after a line with their number; lists give one line per vector; printing an array is defined exactly when every whole number shown is an int, and shows exactly the entries (in sparse mode those of absolute value at least 1e-7), whole numbers exactly; a matrix gives one line per row, beginning with its number and telling exactly its elements, by ascending column if stored by columns; statistics give one line each, defined exactly when there are at least seven, with the names in the order of the enumeration, to ten digits or 'inf'. Refuted: any array can be printed (an infinite bound is converted to int: undefined); separators stand between entries only.", "quantifier": "all vectors, arrays, matrices and statistics", "why_tests_cant": "for all contents and sizes", "anchors": ["src/utility/debug.cpp:22-98", "src/utility/utility.cpp:19-43", "include/common/utility.hpp:149, 292-332"]}
{"id": "C87", "title": "Choosing objects can be copied at any time, never share results and never leak", "statement": "For every program that constructs, copies, assigns (also to themselves), deletes and uses the objects choosing the variables of the partial tree: the answers are those of a program in which each variable holds its own value and there is no memory, and a call is undefined only where a call on a value is; programs keeping to the rules (at least one candidate, not fewer than already tried at the node, no choice after the node was found infeasible) are never undefined and never throw, every allocated block of results is then held by exactly one live object, the results fit, no more candidates are strong branched on at a node than asked for, and when all objects are deleted nothing is left; a copy made at any moment, also between setting up the list and choosing, answers later calls as the original would; the partial tree's search gets exactly the chosen settings; the number of times a variable is tried before its pseudo-cost is trusted has no effect, after any history. Refuted: choosing after an infeasible set-up; lowering the number of candidates at a node; pseudo-costs replace strong branching after the given number.", "quantifier": "all programs of constructions, copies, assignments, deletions and calls, all answers of the solver", "why_tests_cant": "for every history of the objects and every sorting routine", "anchors": ["src/branch/OsiChooseStrongCustom.cpp:178-260, 448-452, 580-797", "include/OsiChooseStrongCustom.hpp", "src/disjunction/PartialBBDisjunction.cpp:385-421"]}
{"id": "C88", "title": "Scaling a cut leaves the same points satisfying it", "statement": "Scaling a cut is defined exactly when some coefficient is not zero within the tolerance; it multiplies every coefficient and the right-hand side by one power of ten, at least one: the variables are the same, exactly the same points satisfy the cut, and the violation of the others is multiplied by that power; after scaling, the product of the smallest counted coefficient and the largest number exceeds one hundredth, and is below one hundred if the cut was changed; the norm of a row of a matrix stored by rows, with or without gaps, is the Euclidean norm of the row, and there is none for a row beyond the last. Refuted: numbers that are too big are reduced; scaling twice is scaling once; it works without a tolerance; the norm is that of the row for a matrix stored by columns.", "quantifier": "all cuts, tolerances above zero, points, matrices and rows", "why_tests_cant": "for every cut and every magnitude, with the logarithms cut to integers", "anchors": ["src/cut/CutHelper.cpp:165-202", "src/utility/utility.cpp:636-646"]}
{"id": "C89", "title": "With the code's tolerances a returned cut is off by at most a stated amount", "statement": "Points and rays from which entries below EPS and RAYEPS are dropped, a PRLP solution that satisfies its rows only up to a tolerance delta, a cut row and a cleaning that drop coefficients below EPS: every point of the disjunction satisfies the returned cut up to (EPS + RAYEPS m) |alpha| + EPS |x| + delta (1 + m/sigma) + EPS (1 + |x|), with m the movement of the term's nonbasic variables and sigma the smallest power of ten used to scale a ray; the amount is bounded by sizes alone; calls on split disjunctions and on partial trees return only such cuts; with tolerances 0 this is exact validity. Refuted: with the code's tolerances and an exactly solved PRLP a cut never cuts off a feasible point of the disjunction.", "quantifier": "all instances, disjunctions, tolerances, approximate PRLP solutions and points", "why_tests_cant": "for every point of every term: the loss is bounded before anything is run", "anchors": ["src/cut/CglVPC.cpp:1376-1436", "src/utility/nbspace.cpp:195-380", "src/cut/PRLP.cpp:638-759", "src/cut/CutHelper.cpp:50-104"]}
{"id": "C90", "title": "The main program never loses an integer point, from the first round to the last bound", "statement": "Over all rounds of the main program, with each list of VPCs coming from a call of a new generator on the problem the solver then holds (splits, trees, sets of either, or an optimal solution found) and Gomory cuts valid for it: an integer-feasible point of the original problem that no tree gave up satisfies all cuts of all rounds, stays feasible in every solver, and no bound of the last round exceeds its value; if that is so for every integer point, the problem left in the main solver has exactly the integer-feasible points of the original one with the same objective; when a round found an optimal solution and added the objective cut, the bound with all cuts is the integer optimum. The objective cut is the objective bound exactly when no coefficient is within 1e-7 of EPS; refuted: otherwise such coefficients are dropped (the test compares with EPS, not with 0) and the cut can remove every point of the problem, the optimal one included.", "quantifier": "all problems, numbers of rounds, GOMORY settings, call histories, and integer points", "why_tests_cant": "rounds feed each other: an invalid cut in one round would spoil all later ones, for any number of rounds", "anchors": ["src/main.cpp:459-834", "src/cut/CglVPC.cpp:402-481", "src/cut/CglVPC.cpp:235-556", "src/utility/SolverHelper.cpp:517-645"]}
{"id": "C91", "title": "The files with drawings hold the trees of their round", "statement": "In a TRACE build, after any trees of any rounds, with TEMP asking for drawings or not: the .aleks file of a round holds what it held before followed by one entry for every tree drawn in that round, in order; the .tex file holds the last of them; no other file changes. The program exits exactly when a file cannot be opened, with the files of the earlier trees complete. With a negative TEMP the picture does not depend on objective values. The TreePlot text is added to FILENAME-Tree.aleks on request, and nothing else is written. Refuted: every tree of a set keeps a picture (they share one .tex file); a minus sign only leaves out the values (each of the sub-options with-VPCs, with-GMICs, return, exit is taken exactly when it was not asked for); the TreePlot file is checked (undefined behaviour when it cannot be opened).", "quantifier": "all lists of trees, rounds, names of instances, figures, tables, earlier contents of files, answers of fopen, and values of TEMP", "why_tests_cant": "the files of one run depend on all trees drawn before; the bit patterns of negative numbers are not covered by examples", "anchors": ["src/utility/vpc_debug.cpp:194-201", "src/utility/vpc_debug.cpp:328-552", "src/disjunction/PartialBBDisjunction.cpp:214-232", "include/VPCParameters.hpp:169-187"]}
{"id": "C92", "title": "Stored objective values are checked against the solver's, within three percent", "statement": "When a term of a disjunction is solved and its objective was stored, the program exits exactly when the two values differ by at least DIFFEPS and either one is zero (within DIFFEPS) and they are 0.03 or more apart, or they have the same sign and one is at least 1.03 times the other in absolute value; the roles of the two values can be exchanged. At the root of a disjunction the same holds if something was changed there and no inequalities were added; the program exits also when the solver is not optimal after the changes, and checks nothing when nothing changed. On values of one sign beyond the tolerances, the checks of getSolverForTerm and of points in the nonbasic space decide in the same way. Refuted: a value of the wrong sign is recognised (never, however large, except for points); the value after the second resolve is looked at (only in getSolverForTerm).", "quantifier": "all objective values, stored values, tolerances, and numbers of changed and fixed bounds and added inequalities", "why_tests_cant": "the decision depends on signs, tolerances and quotients of two arbitrary numbers", "anchors": ["src/cut/CglVPC.cpp:923-971", "src/cut/CglVPC.cpp:1134-1175", "src/disjunction/Disjunction.cpp:203-228", "src/utility/nbspace.cpp:146-193"]}
