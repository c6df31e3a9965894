{"id": "C01", "title": "Parameters behave as a finite map", "statement": "After any history of setpar/fixpar/freepar calls, getpar(n) returns the value of the most recent setpar(n, .) and raises unassignedError exactly when setpar(n, .) was never called; calls on other parameter ids, fixing and freeing never change the value.", "quantifier": "every finite sequence of setpar/fixpar/freepar calls and every parameter id", "why_tests_cant": "A test fixes one short history; the claim is about all interleavings of calls on all ids.", "anchors": ["src/extensions/libpdffit2/fit.cc: Fit::setpar, Fit::getpar, Fit::parfind, Fit::fixpar, Fit::freepar"]}
{"id": "C02", "title": "Free/fixed flag follows the last fix or free", "statement": "A parameter is free right after its first setpar; afterwards it is free iff the last fixpar/freepar that named it (or ALL) after its creation was freepar. A later setpar of an existing parameter does not change the flag; fixpar/freepar of an undefined id raises unassignedError and changes nothing.", "quantifier": "every finite sequence of setpar/fixpar/freepar calls, including ALL", "why_tests_cant": "Depends on whole call histories, not on single calls.", "anchors": ["src/extensions/libpdffit2/fit.cc: Fit::fixpar, Fit::freepar, Fit::setpar"]}
{"id": "C03", "title": "A variable has at most one constraint and the last one wins", "statement": "Constraining a variable that is already constrained replaces the old constraint, so the variable's value after the next calculation is that of the latest constraint; this holds as long as every constrained variable depends on at least one free parameter when constrain is called. Without that proviso (a constrained variable whose parameters were all fixed at the last calculation is constrained again) a second entry is appended instead.", "quantifier": "every sequence of constrain / setpar / fixpar / freepar / calculation steps", "why_tests_cant": "The duplicate shows up only for particular histories (fix, calculate, constrain again).", "anchors": ["src/extensions/libpdffit2/fit.cc: Fit::vfind, Fit::constrain, Fit::fill_variables"]}
{"id": "C04", "title": "Constrained variables take the value of their constraint", "statement": "After the constraints are evaluated each constrained variable equals its constraint's value at the current parameters: p for IDENT, 1-p for FCOMP, p*p for FSQR, the formula value otherwise; variables with no constraint keep their value; if a constraint names an undefined parameter the evaluation raises constraintError.", "quantifier": "every list of constraints, every parameter table, every assignment of variables", "why_tests_cant": "Ranges over all constraint lists and parameter tables, including the order of entries.", "anchors": ["src/extensions/libpdffit2/fit.cc: Fit::fill_variables"]}
{"id": "C05", "title": "Derivatives of variables w.r.t. parameters are the true ones", "statement": "The table of derivatives d(variable)/d(parameter) used for the error propagation and the gradient equals the true partial derivative of the constraint for every free parameter and is zero for every free parameter that does not occur in it, when the table starts zeroed. When a constraint is replaced by one that depends on different parameters (same number of constraints and parameters) the stale derivative of the old constraint survives.", "quantifier": "every list of constraints and every parameter table; every history of replaced constraints", "why_tests_cant": "A numeric test compares a few numbers at one point; stale entries need a specific history.", "anchors": ["src/extensions/libpdffit2/fit.cc: Fit::fill_variables", "src/extensions/libpdffit2/matrix.h: matrix::resize"]}
{"id": "C06", "title": "Constraint formulas follow the usual arithmetic grammar", "statement": "The value of a constraint formula built from numbers, @n references, + - * /, unary signs, brackets and built-in functions equals its value under the usual rules: brackets first, then * and / before + and -, left to right, unary sign binding tightest.", "quantifier": "every formula tree of any depth and every parameter table", "why_tests_cant": "Infinitely many formulas; nesting depth and operator mix are unbounded.", "anchors": ["src/extensions/libpdffit2/parser.cc: Fit::parse, Fit::compute, Fit::getnum, Fit::substitute_pars"]}
{"id": "C07", "title": "Formula derivatives are the true partial derivatives", "statement": "Together with its value a formula yields, for each referenced free parameter, the partial derivative of the formula with respect to that parameter at the current parameter values (where the built-ins and quotients involved are differentiable), and zero contribution of fixed parameters.", "quantifier": "every formula tree, every parameter table, every set of fixed parameters", "why_tests_cant": "Infinitely many formulas; finite differences only sample.", "anchors": ["src/extensions/libpdffit2/parser.cc: Fit::compute, Fit::getnum", "src/extensions/libpdffit2/MathUtils.h"]}
{"id": "C08", "title": "Bad formulas are rejected, never read wild memory", "statement": "Evaluating any formula string either returns a value or raises an error; it never reads an intermediate result that was not produced. This holds for every string in which no ')' is immediately followed by a digit; with such a string (for example '(1)2') an intermediate result beyond the end of the list is read.", "quantifier": "every string of characters and every parameter table", "why_tests_cant": "Test-suites try a handful of malformed strings; the claim is about all strings.", "anchors": ["src/extensions/libpdffit2/parser.cc: Fit::parse, Fit::compute, Fit::getnum"]}
{"id": "C09", "title": "A refinement always finishes", "statement": "refine() stops after at most 101 refine_step calls and at least 5, whatever the sequence of chi-squared values (including NaN) as long as no step raises; it ends after n iterations exactly when n is the first number for which either 100 iterations were made or n >= 4 and the last three iterations stagnated. When steps may raise it still ends within 101 calls.", "quantifier": "every sequence of chi-squared values produced by the steps and every tolerance", "why_tests_cant": "Non-termination is a statement about infinite behaviours.", "anchors": ["src/extensions/libpdffit2/fit.cc: PdfFit::refine, PdfFit::refine_step"]}
{"id": "C10", "title": "A refinement never makes the fit worse", "statement": "Over the steps of a refinement that was started afresh the reported chi-squared never increases, the parameters change only in steps in which chi-squared strictly decreased, and the reported chi-squared always is that of the reported parameters. A refinement that ends normally reports a chi-squared not above that of the starting parameters.", "quantifier": "every model function, every data set, any number of steps", "why_tests_cant": "Holds for every objective function and number of steps; a test has one model.", "anchors": ["src/extensions/libpdffit2/pdflsmin.cc: PdfFit::mrqmin", "src/extensions/libpdffit2/fit.cc: PdfFit::refine_step"]}
{"id": "C11", "title": "Fixed parameters are not moved by refinement", "statement": "A refinement started afresh, whatever its outcome, leaves every fixed parameter exactly at its value. False for a parameter that is fixed between two calls of refine_step: the next step can still move it.", "quantifier": "every set of free flags, every number of parameters and steps", "why_tests_cant": "All subsets of fixed parameters times all models.", "anchors": ["src/extensions/libpdffit2/pdflsmin.cc: PdfFit::mrqmin, PdfFit::mrqcof"]}
{"id": "C12", "title": "Independent PdfFit objects do not influence each other", "statement": "Any sequence of edits and complete successful refinements on any number of PdfFit objects leaves each object as if its own calls had been made alone. False for refine_step calls taken in turn on two objects (one object then reports the chi-squared of the other), and false after a failed refinement of another object (refining an already refined object again then uses released arrays).", "quantifier": "every interleaving of operations on two objects", "why_tests_cant": "Quantifies over all interleavings.", "anchors": ["src/extensions/libpdffit2/fit.cc: PdfFit::refine_step (static fit_running)", "src/extensions/libpdffit2/pdflsmin.cc: PdfFit::mrqmin (static locals)"]}
{"id": "C13", "title": "A failed step does not corrupt the next refinement", "statement": "A refinement whose set-up or first iteration raised leaves nothing behind: after any edits the next refine() gives the result of a new object with the same content. False for later failures: when the final step raises because free parameters depend on each other, every later refinement fails in the same way, whatever is fixed or changed in between; and a step that raises in the middle leaves the parameters at values where the model cannot be evaluated, each further call moving them on.", "quantifier": "every sequence of successful and failing steps", "why_tests_cant": "Crash points: the failure may occur at any step.", "anchors": ["src/extensions/libpdffit2/fit.cc: PdfFit::refine_step"]}
{"id": "C14", "title": "Rw and cumulative Rw are consistent", "statement": "The cumulative residual recorded for a data set has one entry per fitted point, is non-decreasing along r for non-negative weights and ends at the data set's share of chi-squared; getcrw() is non-decreasing with last value equal to the data set's Rw; the squares of the data sets' Rw add up to chi-squared over the weighted sum of squared observations.", "quantifier": "every data, weights and model values, any number of points and data sets", "why_tests_cant": "Sums over arbitrary-length data.", "anchors": ["src/extensions/libpdffit2/pdflsmin.cc: PdfFit::mrqcof", "src/extensions/libpdffit2/pdf.cc: DataSet::getcrw, DataSet::getdsrw"]}
{"id": "C15", "title": "Reported Rw belongs to the final fit", "statement": "After refine() the cumulative Rw of each data set is that of the final parameters. This holds when the last trial step was accepted. False otherwise: the recorded cumulative residual then is that of a rejected trial, which can make getdsrw() almost twice (or more) the true value.", "quantifier": "every history of accepted and rejected trial steps", "why_tests_cant": "Depends on whether the last trial was rejected.", "anchors": ["src/extensions/libpdffit2/pdflsmin.cc: PdfFit::mrqmin, PdfFit::mrqcof", "src/extensions/libpdffit2/pdf.cc: DataSet::getcrw"]}
{"id": "C16", "title": "The linear solver returns the inverse and the solution or an error", "statement": "Given a square matrix A and right-hand sides B, the Gauss-Jordan step either raises calculationError or replaces A by its two-sided inverse and B by the unique X with A X = B; it raises exactly if A is singular, and nothing outside the n x n and n x m blocks is written.", "quantifier": "every size n, every number of right-hand sides, every real matrix", "why_tests_cant": "All sizes and all pivoting orders.", "anchors": ["src/extensions/libpdffit2/gaussj.cc: gaussj"]}
{"id": "C17", "title": "Covariance matrix is expanded to the right rows and columns", "statement": "After the covariance of the free parameters is expanded to all parameters, the entry of two free parameters is their covariance from the compact matrix, and every row and column of a fixed parameter is zero.", "quantifier": "every set of free flags and every matrix size", "why_tests_cant": "All subsets of fixed parameters.", "anchors": ["src/extensions/libpdffit2/pdflsmin.cc: covsrt, PdfFit::mrqmin"]}
{"id": "C18", "title": "Results list parameters in ascending id order, each once", "statement": "The order in which parameters are printed in the refinement output and results file is a permutation of all parameters with ascending ids.", "quantifier": "every list of distinct parameter ids", "why_tests_cant": "All permutations of definitions.", "anchors": ["src/extensions/libpdffit2/output.cc: Fit::order_by_id"]}
{"id": "C19", "title": "Session bookkeeping stays consistent", "statement": "After any sequence of structure reads, data reads, alloc, setphase, setdata, psel, pdesel and reset, every data set has exactly one selection entry per phase, each entry is either 'not selected' or that very phase, the current phase/data set is one of the loaded ones or none if nothing is loaded, phases and data sets are numbered 1..n in loading order, a newly read phase is selected in every data set and a new data set selects all phases.", "quantifier": "every finite sequence of session operations", "why_tests_cant": "An invariant over all histories.", "anchors": ["src/extensions/libpdffit2/pdf.cc: PdfFit::alloc, PdfFit::selphase, PdfFit::pdesel, PdfFit::read_data*", "src/extensions/libpdffit2/stru.cc: PdfFit::read_struct*", "src/extensions/libpdffit2/pdffit.cc: PdfFit::setphase, PdfFit::setdata, PdfFit::reset"]}
{"id": "C20", "title": "Rejected session calls change nothing", "statement": "Any call that raises an error (alloc with bad ranges, setphase/setdata/psel/pdesel of a missing index, malformed structure or data text, selection of missing atoms, pdfrange on a single data set, setvar of an unassigned variable) leaves phases, data sets, selections, current indices and variables as before. False for pdfrange of all data sets: the data sets before the offending one keep the new range.", "quantifier": "every session state and every rejected call", "why_tests_cant": "All states times all bad inputs.", "anchors": ["src/extensions/libpdffit2/pdf.cc: PdfFit::alloc, PdfFit::range, PdfFit::read_data_string", "src/extensions/libpdffit2/stru.cc: PdfFit::read_struct_string"]}
{"id": "C21", "title": "Partial-PDF atom selection has set semantics", "statement": "selectAtomType/selectAtomIndex/selectAll/selectNone on phase p and side i or j change only that side of that phase in the current data set, for exactly the atoms named; psel, pdesel, other reads and ranges change no atom selection; an atom is ignored exactly when the last call of the whole history naming it (in that data set, phase and side) switched it off, and new phases and data sets start with everything on.", "quantifier": "every sequence of selection calls", "why_tests_cant": "All call histories over all atoms.", "anchors": ["src/extensions/libpdffit2/pdf.cc: PdfFit::selectAtomType, PdfFit::selectAtomIndex, PdfFit::selectAll, PdfFit::selectNone"]}
{"id": "C22", "title": "Atom selection on a deselected phase is safe", "statement": "In every reachable session, a call is undefined behaviour only when it is a selectAtomType/Index/All/None call naming an existing phase that is deselected in the current data set, or a variable assignment when all phases or all data sets have been deleted; histories without pdesel are always defined as long as no variable is set after reset. After pdesel of a phase a selection call on it dereferences the empty selection entry (finding).", "quantifier": "every session history", "why_tests_cant": "Needs a specific history (pdesel before select).", "anchors": ["src/extensions/libpdffit2/pdf.cc: PdfFit::check_sel_args, PdfFit::selphaseForEachDataSet, PdfFit::pdesel"]}
{"id": "C23", "title": "Each atom pair is counted exactly once per order", "statement": "The loop over unordered atom pairs with weight 2 off the diagonal equals the sum over all ordered pairs that count, where a pair is left out only when both of its orders are excluded; the rule is symmetric, counts everything when nothing is excluded and nothing when one side excludes every atom, and the factor on the baseline is the share of the counted pairs. Leaving out a site with occupancy 0 does change the PDF (the share ignores occupancies).", "quantifier": "every number of atoms, every exclusion pattern, every symmetric pair function", "why_tests_cant": "All exclusion patterns and sizes.", "anchors": ["src/extensions/libpdffit2/pdf.cc: DataSet::determine"]}
{"id": "C24", "title": "Fit range limits are ordered and in bounds", "statement": "For a data set with positive step and a fit range inside the data, the calculation ends without an access outside the arrays; the first and last points used for fitting and for calculating are the nearest grid points and satisfy 0 <= first calculated <= first fitted <= last fitted <= last calculated; the last fitted point is an observed point when the range ends within the data; points before the first calculated one are zero. This holds for any phases with an accepted cell and for all data sets together. A step of zero, which alloc accepts, is undefined behaviour.", "quantifier": "every regular data grid, every accepted fit range, every peak position and width", "why_tests_cant": "Real-valued ranges; off-by-one errors appear only at special alignments.", "anchors": ["src/extensions/libpdffit2/pdf.cc: DataSet::determine, DataSet::extendCalculationRange, DataSet::range, PdfFit::range"]}
{"id": "C25", "title": "pdfrange validates its arguments", "statement": "pdfrange(iset, rmin, rmax) accepts exactly when rmin < rmax and both lie within the data range of the named data set (or of all data sets for ALL) and the set exists; then exactly the named data sets get the new range. For ALL a rejection may leave earlier data sets changed.", "quantifier": "every list of data sets and every argument triple", "why_tests_cant": "All data set combinations; the non-atomic failure needs several data sets.", "anchors": ["src/extensions/libpdffit2/pdf.cc: PdfFit::range, DataSet::range"]}
{"id": "C26", "title": "getR, getpdf_obs, getpdf_fit and getpdf_diff agree on the grid", "statement": "When the fit range has more than one point the lists from getR, getpdf_obs, getpdf_fit and getpdf_diff have the same length nfmax-nfmin+1, entry k of each refers to the same r = rmin + (nfmin+k)*deltar, the fitted entries are zero before a calculation, and the difference is observed minus fitted entry by entry. This holds after reading any data text, and after a calculation for every fit range inside the data that is longer than one step. It does not hold for a range of one point, nor for data given as arrays before a calculation: getR then returns the whole grid and the other lists one entry.", "quantifier": "every data text, array, model and fit range", "why_tests_cant": "All ranges and lengths.", "anchors": ["src/extensions/pdffit2module/misc.cc: pypdffit2_getR, pypdffit2_getpdf_obs, pypdffit2_getpdf_fit, pypdffit2_getpdf_diff", "src/extensions/libpdffit2/pdffit.cc: PdfFit::getpdf_obs, PdfFit::getpdf_fit"]}
{"id": "C27", "title": "Data texts are read as written; weights are all-or-nothing", "statement": "A text made of a header (comment lines, or a History block up to '### start data'), rows of the same number ncol >= 2 of printed numbers and nothing or a line with fewer than two numbers is read as follows: r and G are the values of the first two columns in order; the weights are 1/dG^2 of the last column if ncol is 3 or 4 and all dG are positive, and otherwise all 1; fewer than two rows or spacing off by more than 0.001 raises dataError; the fit range is the whole data. Any accepted text gives at least two points and weights that are all 1 or all 1/x^2. Not guaranteed: r may be constant or decreasing, and arrays get weights 1/sqrt(dG) instead of 1/dG^2.", "quantifier": "every header, table and text", "why_tests_cant": "All texts; a single missing uncertainty anywhere switches all weights.", "anchors": ["src/extensions/libpdffit2/pdf.cc: DataSet::read_data_stream, isRegular"]}
{"id": "C28", "title": "Reading data text ends, with one exception", "statement": "Reading a data text ends, except when the last line has no newline and every line from the first one (after a History block: from '### start data', or the last line) is a comment; then it never ends.", "quantifier": "every text", "why_tests_cant": "Non-termination.", "anchors": ["src/extensions/libpdffit2/pdf.cc: DataSet::read_data_stream"]}
{"id": "C29", "title": "Structure header: where blank lines and comments are harmless", "statement": "A comment in the header of a structure text, together with the blank lines after it, does not change the result. A blank line does not change the result before the first keyword and after a comment, an unknown keyword, a title or a space group. After a keyword with values (scale, sharp, shape, cell, dcell, ncell) it makes the reading fail, and after 'format pdffit' it switches to the DISCUS format, because the blank line repeats the previous keyword without values; so blank lines are not harmless in general.", "quantifier": "every structure text and every place in its header", "why_tests_cant": "All texts and insertion points.", "anchors": ["src/extensions/libpdffit2/stru.cc: Phase::read_header"]}
{"id": "C30", "title": "Saved structures read back", "statement": "Reading back a saved structure gives the same title, space group, cell counts and elements, and the same scale, sharpening, shape corrections, lattice, positions, thermal factors, occupancies and their deviations up to the printed number of decimals, provided the rounded angles still make a cell. What was read back is saved and read back without further change, and saving again gives the same text. Not so for a particle diameter or stepcut of at most 5e-7, which is printed as zero and then left out, and the deviations of scale, sharpening and diameter are not saved.", "quantifier": "every structure with finite numbers, in particular every structure that was read", "why_tests_cant": "All values; rounding.", "anchors": ["src/extensions/libpdffit2/stru.cc: Phase::save_struct, Phase::read_header, Phase::read_atoms", "src/extensions/libpdffit2/Atom.cc"]}
{"id": "C31", "title": "Metric tensors are consistent", "statement": "A cell is accepted exactly when the squared volume of its unit-edge version exceeds the tolerance 1.5e-8, so angles that do not close are rejected. The direct metric tensor then equals the scalar products of the edges up to that tolerance, is symmetric, and, when no off-diagonal product is so tiny that it is replaced by zero, gives a positive squared length to every non-zero vector and has the squared volume as determinant; when the same holds for the reciprocal cell the two tensors are inverse to each other. Without the last condition they need not be (large cells), and a zero edge is accepted.", "quantifier": "every cell lengths > 0 and angles", "why_tests_cant": "Continuum of cells.", "anchors": ["src/extensions/libpdffit2/metric.cc: Phase::lattice, Phase::tensor, Phase::skalpro"]}
{"id": "C32", "title": "Lattice point enumeration is complete and without repetition", "statement": "For every proper unit cell the lattice-point iterator used for distances terminates, visits every lattice point whose distance r from the origin satisfies rmin <= r < rmax exactly once, visits no point with r >= rmax, and reports the true distance of each point.", "quantifier": "every unit cell and every radius range", "why_tests_cant": "Continuum of cells and radii; a missing point is invisible without the full proof.", "anchors": ["src/extensions/libpdffit2/PointsInSphere.cc: PointsInSphere::next_m, next_n, next_o"]}
{"id": "C33", "title": "Lattice point enumeration respects the inner radius", "statement": "When no lattice point lies exactly at rmin, no visited point has distance below rmin. With a point at rmin this is false: when the excluded segment ends exactly at a lattice point, points inside rmin are visited (cubic cell a=1, rmin=1, rmax=2 visits the origin).", "quantifier": "every unit cell and radius range", "why_tests_cant": "Only special alignments fail.", "anchors": ["src/extensions/libpdffit2/PointsInSphere.cc: PointsInSphere::next_o"]}
{"id": "C34", "title": "bond_length_types reports all and only the bonds in range", "statement": "bond_length_types(a1, a2, lb, ub) returns a list sorted by length, pairs of equal length in the order of their atom numbers, in which every entry has length in [lb, ub], numbers of existing atoms of the requested types, and every pair of such atoms and lattice translation with length in the range occurs exactly once, provided their coordinates differ by at most one cell. A word that is neither 'all' nor an element in any case raises ValueError. For a block of several cells the completeness is false: bonds through the end of the block are missed.", "quantifier": "every structure with up-to-date tensors, every pair of words and every pair of bounds", "why_tests_cant": "Continuum of structures.", "anchors": ["src/extensions/libpdffit2/stru.cc: PdfFit::bond_length_types, Phase::bond_length_types, selectAtomsOf"]}
{"id": "C35", "title": "bond_length_atoms and the shortest distance", "statement": "bond_length_atoms(i,j) is the distance of atom i from some image of atom j. In a cell with right angles it is the shortest such distance exactly when each coordinate difference, without its sign and up to whole blocks, is at most half a block, and does not depend on the order of the atoms. In other cells it is not longer than for the image in the negative octant, and shortest on the line for atoms on a line along an edge. Numbers of atoms that do not exist raise ValueError. That it is always the shortest distance, that the order of the atoms does not matter in oblique cells and that it belongs to the current cell after setvar are false.", "quantifier": "every structure with up-to-date tensors and every pair of numbers", "why_tests_cant": "Continuum of structures.", "anchors": ["src/extensions/libpdffit2/stru.cc: Phase::make_nearest, Phase::bond_length_atoms"]}
{"id": "C36", "title": "bond_angle is a valid symmetric angle", "statement": "bond_angle(i,j,k) is the angle between the vectors to the two images whose distances bond_length_atoms reports: it is in [0,180] degrees and its cosine is the scalar product over the lengths. It is symmetric in i and k together with its standard deviation, is not a number exactly in the case that the vertex coincides with an image of i or k, and equal numbers or numbers of atoms that do not exist raise ValueError. That it is the angle between the shortest bonds is false.", "quantifier": "every structure with up-to-date tensors and every triple of numbers", "why_tests_cant": "Continuum of structures.", "anchors": ["src/extensions/libpdffit2/stru.cc: Phase::bond_angle, Phase::make_nearest"]}
{"id": "C37", "title": "Built-in functions have the derivative the refinement uses", "statement": "Each built-in function available in formulas is paired with its true derivative on its domain.", "quantifier": "every real argument in the domain of each built-in", "why_tests_cant": "Continuum of arguments.", "anchors": ["src/extensions/libpdffit2/pdffit.cc: Fit::init_builtins", "src/extensions/libpdffit2/MathUtils.h"]}
{"id": "C38", "title": "Spherical envelope is a shape factor with the right derivative", "statement": "For every diameter d > 0 and r >= 0 the envelope is in [0,1], 1 at r = 0, 0 for r > d, non-increasing in r, and the derivative used in refinement is its derivative with respect to d.", "quantifier": "every r and d", "why_tests_cant": "Continuum of arguments.", "anchors": ["src/extensions/libpdffit2/ShapeFactors.h: sphereEnvelope, dsphereEnvelope"]}
{"id": "C39", "title": "Phase fractions are fractions", "statement": "For each normalisation (atom, cell, mass) the phase fractions of selected phases with non-negative scales and occupancies, positive masses and non-zero average scattering factor lie in [0,1], sum to 1 if any scale is positive and are 0 for phases not selected. Whenever the total is positive the reported standard deviations are those of first-order error propagation with the true partial derivatives with respect to the scales; otherwise all entries are 0.", "quantifier": "every number of phases, every scale, selection and scattering factor with nonzero average", "why_tests_cant": "All phase counts and selections.", "anchors": ["src/extensions/libpdffit2/pdf.cc: DataSet::getAtomPhaseFractions, getCellPhaseFractions, getMassPhaseFractions", "src/extensions/libpdffit2/pdffit.cc: PdfFit::getPhaseFractions"]}
{"id": "C40", "title": "Custom scattering factors are local to phase, element and radiation", "statement": "After any history of new phases, clearing, set_scat, reset_scat and get_scat calls on any phases, get_scat for a phase, radiation and element returns the last value set for exactly that phase, radiation and element since the last reset of that element, and the standard value of the table otherwise. Calls fail exactly for unknown elements or radiations.", "quantifier": "every history of set/reset calls over phases, elements and radiations", "why_tests_cant": "All call histories.", "anchors": ["src/extensions/libpdffit2/scatlen.cc: Phase::set_scat, Phase::reset_scat", "src/extensions/libpdffit2/LocalPeriodicTable.cc", "src/extensions/libpdffit2/pdffit.cc: PdfFit::get_scat"]}
{"id": "C41", "title": "Element symbols are looked up case-insensitively", "statement": "The lookup finds an element exactly when the query is its symbol or its name (or 2-H, 3-H for D, T) in any letter case; no query means two elements; letter case never matters; the stored symbol and name of each element find it again.", "quantifier": "every string, with the table of 355 elements and isotopes of the code", "why_tests_cant": "All strings.", "anchors": ["src/extensions/libpdffit2/PeriodicTable.cc: PeriodicTable::lookup"]}
{"id": "C42", "title": "The Qmax cutoff is a symmetric linear low-pass filter", "statement": "The termination-ripple filter pads to the power of two from twice the number of points up, never touches a slot outside the buffer, and returns the convolution of the signal with the cosines of the kept frequencies; frequency k is treated as N-k, no frequency from Qmax up is left, the filter is linear, and it is the identity when nothing is cut. That every frequency below Qmax is kept is false.", "quantifier": "every number of points, every positive step and qmax within the int range", "why_tests_cant": "All lengths; bounds.", "anchors": ["src/extensions/libpdffit2/pdf.cc: DataSet::applyQmaxCutoff"]}
{"id": "C43", "title": "The calculated PDF is linear in the scale factors", "statement": "The calculated PDF is the data scale times the sum over selected phases of phase scale times a function independent of all scales, also behind the Qmax cutoff; a phase that is not selected makes no difference, and beyond a phase's stepcut its contribution is zero.", "quantifier": "every number of phases and points and all scale values", "why_tests_cant": "All phases and scales.", "anchors": ["src/extensions/libpdffit2/pdf.cc: DataSet::determine"]}
{"id": "C44", "title": "Columns of the derivative table are derivatives of the calculated PDF", "statement": "For every variable that can be refined, the column of the table of derivatives handed to the least-squares routine is the derivative of the calculated PDF of that data set with respect to that variable, at every point and after the same cutoff in Q, with the pairs and the points reached by each peak held fixed: scale factors, damping, particle diameter, peak-width factors, occupancies of occupied sites, and for cells with right angles also positions, displacements and edges. For scale factors, damping, diameter and occupancies the column is the derivative of the values that are actually put out. False for displacements in oblique cells, for the cell angles, and for the occupancy of an empty site (NaN).", "quantifier": "every number of phases and atoms, all parameter values in the stated domain, every r, every table layout", "why_tests_cant": "Continuum of values; a wrong derivative only slows or biases convergence, which no example shows.", "anchors": ["src/extensions/libpdffit2/fit.cc: DataSet::fit_setup_derivatives", "src/extensions/libpdffit2/pdf.cc: DataSet::determine, DataSet::pdf_derivative"]}
{"id": "C45", "title": "qbroad derivative in multi-phase data", "statement": "The column for qbroad is the sum over the selected phases of the derivative of their pair sums, each with the factor (scale, envelope, number of atoms) of its own phase. False with more than one selected phase: the accumulated sum is multiplied by the factor of the last selected phase; what the column holds in general is stated and proved, and it is the derivative when all factors agree.", "quantifier": "every number of phases, all values", "why_tests_cant": "Only multi-phase refinements show it.", "anchors": ["src/extensions/libpdffit2/fit.cc: DataSet::fit_setup_derivatives", "src/extensions/libpdffit2/pdf.cc: DataSet::pdf_derivative"]}
{"id": "C46", "title": "Matrix resize and algebra", "statement": "Resizing a matrix keeps every entry that is in range of both shapes and fills new ones with zero; transposing twice is the identity; the product is the usual one and (AB)^T = B^T A^T.", "quantifier": "all sizes and entries", "why_tests_cant": "All sizes.", "anchors": ["src/extensions/libpdffit2/matrix.h: matrix::resize, transposed, operator*"]}
{"id": "C47", "title": "Values with errors are printed consistently", "statement": "A value with standard deviation is printed with six significant digits (correctly rounded, no needless zeros, exponent only outside 0.0001..1e6), followed by ' (deviation)' with two digits exactly when the deviation is larger than 1e-8 of the value, or ' (NaN)'; blanks fill the field up to the width on the requested side and nothing is cut off. Reading the text back gives the value within 5e-6 and the deviation within 5 percent, and fields with a leading blank never run together. Not true: that the value is printed as precisely as its deviation (1234.5678 with 0.001 is printed 1234.57 (0.001)).", "quantifier": "every value, deviation and format settings", "why_tests_cant": "All values and widths.", "anchors": ["src/extensions/libpdffit2/StringUtils.cc: FormatValueWithStd"]}
{"id": "C48", "title": "Variable references are bounds-checked and exact", "statement": "Referring to an indexed variable (lat(i), x(i), u11(i), occ(i) ...) raises unassignedError when no structure was ever loaded, ValueError when i is outside 1..n (negative i included), and otherwise refers to element i of the current phase; reading gives that value and setting changes that variable and nothing else. The same holds for the scalar variables of the current phase and data set. A new data set starts with scale 1, broadening 0, the given damping, its range as fit range and all atoms counted; one without data has zeros with weight 1. False after reset (references to deleted objects) and for references kept while another structure is read (findings).", "quantifier": "every session state and every integer i", "why_tests_cant": "All integers, including negative ones wrapping to unsigned.", "anchors": ["src/extensions/pdffit2module/misc.cc: getRefVar", "src/extensions/libpdffit2/pdffit.cc: PdfFit::setphase", "src/extensions/libpdffit2/pdf.cc:48", "src/extensions/libpdffit2/pdffit.h:424"]}
{"id": "C49", "title": "Wrapping positions into the block of cells is idempotent", "statement": "Each calculation moves every coordinate by whole blocks of cells to a magnitude below one block and changes nothing else in the phases; repeating the calculation gives the same phases and the same result.", "quantifier": "every coordinate and cell count >= 1", "why_tests_cant": "Continuum of coordinates.", "anchors": ["src/extensions/libpdffit2/fit.cc: PdfFit::fit_theory"]}
{"id": "C50", "title": "Refinable variables are laid out without gaps or overlaps", "statement": "The table of refinable variables built before a refinement has 11 slots per phase, 10 per atom and 3 per data set; every variable has its own slot, no slot is left over, each slot holds the constraint on that variable and the place of its error, and the offsets stored with phases, atoms and data sets are the slots where their blocks begin. The set-up refuses only when the counters of phases, atoms and data sets disagree with what is loaded, which no history of reading, failed reading and clearing brings about. The errors of the constraints are then written to exactly the variables under those constraints; all other errors stay.", "quantifier": "every number of phases, atoms per phase and data sets; every constraint table with one entry per variable; every history of reads and resets", "why_tests_cant": "A slot mix-up shows only for particular shapes and particular constrained variables; the number of combinations is unbounded.", "anchors": ["src/extensions/libpdffit2/fit.cc: PdfFit::fit_setup, Fit::fill_errors", "src/extensions/libpdffit2/pdffit.h: getnpar"]}
{"id": "C51", "title": "Errors of constrained variables follow from the covariance by linear propagation", "statement": "The error reported for a constrained variable is sqrt(J C J^T)_ii with C the covariance of the free parameters and J the table of derivatives of the constrained variables; a covariance whose size does not fit the table raises an error instead of producing numbers; each error is written to the variables under that constraint, the error of every other refinable variable is left as it was.", "quantifier": "every number of parameters and constraints, every covariance and derivative table", "why_tests_cant": "Ranges over all matrix sizes and entries.", "anchors": ["src/extensions/libpdffit2/fit.cc: PdfFit::fit_errors, Fit::fill_errors", "src/extensions/libpdffit2/matrix.h: matrix::transposed, operator*, sd"]}
{"id": "C52", "title": "The covariance matrix belongs to the final parameters", "statement": "After a complete refinement the covariance over the free parameters is the exact two-sided inverse of the curvature matrix of weighted derivative products at the final parameters, and zero in rows and columns of fixed parameters; this determines it.", "quantifier": "every model function, data set, set of free flags", "why_tests_cant": "All models and parameter counts; the last undamped step is only reached through the whole stopping logic.", "anchors": ["src/extensions/libpdffit2/pdflsmin.cc: PdfFit::mrqmin, covsrt", "src/extensions/libpdffit2/fit.cc: PdfFit::refine_step"]}
{"id": "C53", "title": "When a refinement succeeds", "statement": "If the model can be evaluated everywhere, weights are non-negative and each free parameter influences some weighted point, refine() succeeds exactly when the free parameters are independent at the final parameters and raises calculationError otherwise. The damped equations of a step are singular exactly when some free parameter has no influence on any weighted point.", "quantifier": "every model function, weights, damping and starting point", "why_tests_cant": "Quantifies over all models; singularity is a measure-zero event for tests.", "anchors": ["src/extensions/libpdffit2/pdflsmin.cc: PdfFit::mrqmin", "src/extensions/libpdffit2/gaussj.cc"]}
{"id": "C54", "title": "Steps solve the damped normal equations and point downhill", "statement": "Every step tries p + d where d solves the normal equations with the diagonal enlarged by a positive factor and is zero for fixed parameters; the trial is kept exactly when it lowers chi-squared; to first order chi-squared does not increase along d.", "quantifier": "every differentiable model, any damping, any number of parameters", "why_tests_cant": "Analytic statement about all models.", "anchors": ["src/extensions/libpdffit2/pdflsmin.cc: PdfFit::mrqmin, PdfFit::mrqcof"]}
{"id": "C55", "title": "A refinement stays inside its arrays", "statement": "A refinement that starts afresh never reads or writes outside its work arrays when set-up and model evaluation do not. False when a parameter is added between two refine_step calls: the second one then overruns the arrays.", "quantifier": "every number of parameters, every left-over of earlier refinements", "why_tests_cant": "Memory safety over all histories.", "anchors": ["src/extensions/libpdffit2/pdflsmin.cc: PdfFit::mrqmin", "src/extensions/libpdffit2/gaussj.cc", "src/extensions/libpdffit2/fit.cc: PdfFit::refine_step"]}
{"id": "C56", "title": "The calculated PDF is the sum of the pair peaks less the baseline", "statement": "At every calculated point the PDF is the sum over the selected phases of scale times envelope times (weighted normal peaks of all counted pairs within reach, each ordered pair once, divided by r and the number of atoms, less 4 pi r rho0 times the counted share), then low-pass filtered if there is a Qmax. Peak positions are interatomic distances and widths come from the displacement tensors, the correlation terms, qbroad and sratio. Boundaries: moving an atom by a lattice translation can lose pairs; one pair with negative square displacement makes every point NaN; a point at r = 0 is NaN and with a Qmax all are.", "quantifier": "every number of phases and atoms, every cell, coordinates, displacement parameters, ranges and steps", "why_tests_cant": "Sums over all lattice translations and pairs for real-valued structures; completeness of the pair search cannot be sampled.", "anchors": ["src/extensions/libpdffit2/pdf.cc: DataSet::determine, msdAtoms, circum_diameter, setup_weights"]}
{"id": "C57", "title": "Standard deviations of bond lengths and angles bound the first order change", "statement": "In a cell without obtuse angles the standard deviation that bond_length_atoms, bond_length_types and bond_angle report is at least the first order change of the distance, or of an angle up to 90 degrees, under every change of edges, angles and coordinates within their standard deviations. In a cell with an obtuse angle, and for bond angles above 90 degrees, the reported value can be too small; for an angle of 180 degrees it is not a number.", "quantifier": "every structure with up-to-date tensors, all standard deviations, every change within them", "why_tests_cant": "Continuum of structures and of directions of change.", "anchors": ["src/extensions/libpdffit2/stru.cc: Phase::bond_angle, Phase::bond_length_atoms, Phase::bond_length_types", "src/extensions/libpdffit2/metric.cc: Phase::dtensor, Phase::dskalpro"]}
{"id": "C58", "title": "A structure text is read as its lines say", "statement": "Reading a structure text gives exactly what its lines say: for every item the last line about it counts, items that are not mentioned have their default, unknown keywords and comments say nothing, old three-value and new four-value sharp lines are told apart, and the atoms follow in the announced format, where DISCUS atoms get the isotropic U = B/8pi^2 and occupancy 1. The reading fails with a structure error when the angles make no cell or the number of atoms is not the announced one, and with a value error at an unknown element. A malformed atom, however, ends the reading silently and the rest of the text is ignored.", "quantifier": "every list of header lines and of atoms, all numerals, separators and formats", "why_tests_cant": "All texts.", "anchors": ["src/extensions/libpdffit2/stru.cc: Phase::read_struct_stream, Phase::read_header, Phase::read_atoms, vget, lstrip, substitute", "src/extensions/libpdffit2/Atom.cc: read_discus_atom, read_pdffit_atom, operator>>"]}
{"id": "C59", "title": "Accepted structures are consistent", "statement": "Whatever the text, a structure that is accepted has angles that make a cell, exactly as many atoms as ncell announces, and only atoms of known elements, stored under the standard symbol. But edges of zero length are accepted, and so is a text that stops before ncell and atoms.", "quantifier": "every text", "why_tests_cant": "All texts, malformed ones included.", "anchors": ["src/extensions/libpdffit2/stru.cc: Phase::read_struct_stream", "src/extensions/libpdffit2/metric.cc: Phase::lattice"]}
{"id": "C60", "title": "Saved PDF and difference texts", "statement": "After a calculation save_pdf and save_dif write one line per grid point of the fit range, in order, with r, the calculated value, 0, the uncertainty and observed minus calculated (r and observed minus calculated for save_dif), each rounded to six significant digits and separated by blanks. Up to r = 100 the text is accepted again by the data reader and gives the same grid within 5e-5 and the saved values within 5e-6 of each; the uncertainties are not read back. A number that names no data set is an error. It does not hold before a calculation, when an empty array is read, nor for grids beyond r = 1000, whose text can be rejected.", "quantifier": "every list of data sets, fit range, grid and every finite observed, calculated and weight value", "why_tests_cant": "All values and ranges; before a calculation the read outside the array may go unnoticed.", "anchors": ["src/extensions/libpdffit2/pdf.cc: PdfFit::save_pdf, PdfFit::save_dif, DataSet::build_pdf_file, DataSet::build_dif_file", "src/extensions/libpdffit2/pdffit.cc: DataSet::getpdf_fit"]}
{"id": "C61", "title": "Parameters and correlations in the results text", "statement": "After a refinement the results text states the number of constraints, of refined and of fixed parameters, and lists every parameter once by ascending id with its last value and its standard deviation (none for a fixed one). The correlations listed are exactly those of two refined parameters whose size exceeds 0.8, each pair once with the smaller id first, and they lie between -1 and 1. save_res is refused exactly if no step was made. It does not hold between the steps of a first refinement, when the deviations are still zero and every pair is listed as infinite, nor after a parameter was added, when the deviations are read beyond the end of the array.", "quantifier": "every sequence of setpar, fixpar and freepar calls, every covariance matrix and all deviations", "why_tests_cant": "Any number and order of parameters; the wrong states need a report in the middle of a refinement or after adding a parameter, and the bad read may go unnoticed.", "anchors": ["src/extensions/libpdffit2/output.cc: Fit::output, Fit::order_by_id", "src/extensions/libpdffit2/pdf.cc: PdfFit::save_res", "src/extensions/libpdffit2/fit.cc: PdfFit::fit_setup, PdfFit::fit_errors"]}
{"id": "C62", "title": "The list of selected atoms in the results text", "statement": "In the results text the list of selected atoms of a phase, read word by word (a symbol alone stands for all atoms of its kind, a symbol with numbers for those atoms), names an atom exactly if the atom is not excluded on that side; so two different selections have different texts. A deselected phase gives an empty list; a side other than i or j is an error.", "quantifier": "every list of atoms with symbols of the element table and every set of excluded atoms", "why_tests_cant": "All structures and all subsets of atoms.", "anchors": ["src/extensions/libpdffit2/output.cc: DataSet::selectedAtomsString", "src/extensions/libpdffit2/stru.cc: Phase::read_struct_stream", "src/extensions/libpdffit2/StringUtils.cc: toupper"]}
{"id": "C63", "title": "Errors become Python exceptions of the right class", "statement": "Whatever a call of the engine raises, the Python caller gets an exception of the class that belongs to it (UnassignedError, DataError, StructureError, CalculationError, ConstraintError, ValueError), and the value otherwise; the process is never ended and no call returns without value and without exception. For calc and the refinement this holds when the constraints refer to parameters that are set, every cell has a volume and every data set has an X-ray or neutron letter and a positive step; otherwise it fails.", "quantifier": "every call of the modelled interface with every argument in every state of the session; for calc and the refinement every constraint table, memory content, structure and data set", "why_tests_cant": "The exceptions that can come out of a calculation depend on all formulas, cells, ranges and parameter values met on the way; a missing handler shows only for the one nobody tried.", "anchors": ["src/extensions/pdffit2module/misc.cc: all functions with try blocks", "src/extensions/libpdffit2/fit.cc: PdfFit::calc, PdfFit::fit_theory, PdfFit::fit_setup, PdfFit::refine_step", "src/extensions/libpdffit2/exceptions.h", "src/extensions/libpdffit2/AtomType.h: AtomType::sf"]}
{"id": "C64", "title": "References to variables in Python", "statement": "A text such as \"x(3)\", \" lat( 2)\" or \"qdamp\" given to getvar, setvar, setpar or constrain stands for that element of the current phase or data set: getvar returns its value and changes nothing, setvar sets it and nothing else, setpar copies it into the parameter, constrain binds it with the given kind. A wrong index, a missing phase, an unknown name, a missing or surplus index, an unknown kind and a variable that cannot be refined are each refused with one exception and nothing changed. Only such texts give a value. The texts written by the methods of PdfFit stand for the variable of the method. A number may be given to setpar as text; ALL in any case means all for fixpar, freepar, psel and pdesel, other words are refused.", "quantifier": "every ASCII text, every session reached by any calls, every parameter table and constraint list", "why_tests_cant": "All spellings with blanks, signs, underscores and brackets, all names against the whole method table of the module, in all sessions.", "anchors": ["src/diffpy/pdffit2/pdffit.py: PdfFit.__getRef, getvar, setvar, setpar, constrain, fixpar, freepar, psel, pdesel, lat, x, ..., rcut, _convertCallable", "src/extensions/pdffit2module/bindings.cc: pypdffit2_methods", "src/extensions/pdffit2module/misc.cc: lat, x, ..., rcut, setvar, getvar, setpar_RV, constrain_int, constrain_str"]}
{"id": "C65", "title": "Grid points and indices in double arithmetic", "statement": "With IEEE double arithmetic as the machine does it, the indices of the fit range lie inside the data and belong to the nearest grid points, the full range has the first and the last index, and the grid value i*deltar+rmin is found again under the index i; grid values increase strictly. A pdfrange between grid points before the last is accepted and selects exactly these points. The calculation range contains the fit range, and a peak is only added inside it, whatever distance, width and cutoff the peak has, NaN and infinity included. With room for the indices in an int no conversion is undefined. After a calculation getR lists the points of the fit range; before it lists all points or all but the last. The r values read are accepted exactly when neighbours differ by the mean step to one thousandth (up to rounding), and the set then starts and ends with them.", "quantifier": "every pair of finite doubles as limits with at least 2^-900 between them, every number of points that is an int, every sequence of accepted pdfrange calls and calculations, every double as distance, width, cutoff and qmax", "why_tests_cant": "Rounding errors depend on the particular limits and number of points; a few percent of the ordinary grids behave differently from the rest.", "anchors": ["src/extensions/libpdffit2/pdf.cc: PdfFit::alloc, DataSet::determine, DataSet::extendCalculationRange, isRegular, read_data_arrays, read_data_stream, PdfFit::range, DataSet::range", "src/extensions/libpdffit2/MathUtils.h: nint", "src/extensions/pdffit2module/misc.cc: getR"]}
{"id": "C66", "title": "Phases and data sets in the results text", "statement": "The text of save_res has one section per phase and per data set, in their order, between lines of dashes. In a section every labelled line shows the value it names with six digits, with its standard deviation in parentheses when it matters: scale, particle diameter and step cutoff (or 'not applied' when they are off), correlation terms, lattice parameters and angles, position and occupancy of every atom, its displacement factors; ranges, residuals, radiation, Qmax, qdamp, qbroad, scale, selected atoms and phase fractions of a data set. Values can be split into columns whatever their magnitude. The text with scattering factors names every atom type with its value.", "quantifier": "all numbers of phases, data sets and atoms, all finite or NaN values and deviations, all names without line breaks, all selections", "why_tests_cant": "A test compares a few printed texts; columns that run together, a missing second line or a label with the wrong value show up only for particular magnitudes and selections. That the text can be read back for every value needs a proof about the printed characters.", "anchors": ["src/extensions/libpdffit2/output.cc:37", "src/extensions/libpdffit2/output.cc:162", "src/extensions/libpdffit2/pdf.cc:918", "src/extensions/libpdffit2/scatlen.cc:36", "src/extensions/libpdffit2/StringUtils.cc:43"]}
{"id": "C67", "title": "Output goes to the file chosen last", "statement": "The engine's output and the class's own printing go to the object given to the last accepted redirect_stdout, or to the standard output when none was given or restore_stdout was called since: every text once and in order, the output of refine_step included although it is held back until the step ends; an object without write or flush is refused and changes nothing; the module keeps exactly one reference to the object in use and none to earlier ones; this also holds when other threads use the module while one refine_step is running.", "quantifier": "all sequences of redirect, restore, engine output, class output and refine_step calls; all interleavings of refine_steps with other calls", "why_tests_cant": "The destination depends on the whole history of calls, and refine_step releases the interpreter lock, so the number of interleavings is unbounded; text written to a destroyed buffer or without the lock usually looks right in a test.", "anchors": ["src/extensions/pdffit2module/misc.cc:401-476", "src/extensions/pdffit2module/misc.cc:2176-2232", "src/extensions/pdffit2module/PyFileStreambuf.h:45-82", "src/diffpy/pdffit2/output.py:23-48", "src/extensions/libpdffit2/OutputStreams.cc:21"]}
{"id": "C68", "title": "Files, names of loaded structures and data, and saved files", "statement": "After any sequence of calls stru_files has one entry per phase of the engine, in the order of the phases: the file name, the given name or the empty text. data_files has the names of the data sets from files and lists in order. A loading call that raises an exception (bad text, missing file, wrong lengths or ranges) changes neither the lists nor the engine. Reading a file is the same as giving its contents as text; a file that cannot be opened is an IOError. The four save methods return their text; with a file name exactly that file gets the text and no other file changes, with a file that cannot be opened nothing changes and there is an IOError, with an unknown number nothing is written. It does not hold that every data set has an entry in data_files (alloc adds none, so later entries are shifted), that the name given to read_data_string is kept (data_files gets the whole data text, the engine the word string), nor that a file whose saving succeeded is complete (a full disk goes unnoticed).", "quantifier": "all sequences of calls with any texts, names and changing files; all file systems, file names and data sets or phases", "why_tests_cant": "the lists and the engine are two copies of the same history kept by different code; tests load one or two files and do not compare them after failures, resets and mixtures of sources, nor write to full disks", "anchors": ["src/diffpy/pdffit2/pdffit.py:166", "src/diffpy/pdffit2/pdffit.py:226", "src/extensions/pdffit2module/misc.cc:93", "src/extensions/pdffit2module/misc.cc:483", "src/extensions/libpdffit2/pdf.cc:969", "src/extensions/libpdffit2/pdf.cc:1324", "src/extensions/libpdffit2/stru.cc:433"]}
{"id": "C69", "title": "Printed bond lengths and angles", "statement": "blen(i, j) prints one line with symbol and number of both atoms, the length with six digits and, if larger than 1e-8 of it, the standard deviation in parentheses; the columns are aligned for short names. blen(a1, a2, lb, ub) prints a title with the words and bounds, one such line for each bond of these elements within the bounds, once each, in order of length, an empty line, and the notice that no pairs were found exactly if there are none. bang(i, j, k) prints one line for the angle. A call that raises has printed nothing; only ValueError (no such atom or element), unassignedError (no structure), TypeError and OverflowError (arguments) are raised, never an IndexError or AssertionError from the lookup of the symbols. An element may be given by its number in order of first occurrence. It does not hold that a number no element has is refused: 0 and negative numbers count from the end, one too large prints nothing and raises nothing.", "quantifier": "all phases with symbols of the table, all arguments of any type and number, all lengths and deviations", "why_tests_cant": "the lines are put together from three calls of the engine and two numberings of atoms (from 0 and from 1) that must agree for every pair; tests do not look at the printed lines", "anchors": ["src/diffpy/pdffit2/pdffit.py:31", "src/diffpy/pdffit2/pdffit.py:49", "src/diffpy/pdffit2/pdffit.py:812", "src/diffpy/pdffit2/pdffit.py:846", "src/extensions/pdffit2module/misc.cc:1320", "src/extensions/pdffit2module/misc.cc:1390", "src/extensions/pdffit2module/misc.cc:2061"]}
{"id": "C70", "title": "Volume, reciprocal cell and density with their standard deviations", "statement": "For every cell with positive edges and angles between 0 and 180 degrees that is accepted, the volume is the square root of the determinant of the metric, the reciprocal volume is its inverse, the reciprocal edges and angles are those of the inverse metric, and the density times the number of cells times the volume is the sum of the occupancies. The standard deviations of volume, reciprocal volume, reciprocal edges and diagonal elements of the reciprocal metric are, to first order, at least the change for any changes of edges and angles within their deviations; so is the deviation of a reciprocal angle if each angle that has a deviation faces a reciprocal angle that is not acute. The deviations are changes that occur: those of the reciprocal angles always, that of the volume if no angle is acute, that of a reciprocal edge if only its edge has a deviation. The text printed when a structure is read shows each of these values with its deviation behind its label, in a fixed order. It does not hold in general that the deviation of a reciprocal angle is a bound (it is negative for a hexagonal cell with a deviation of beta), that an off-diagonal element of the reciprocal metric with zero deviation does not change, or that the deviation of the density is the propagated one: for a block of n cells it is n times too large.", "quantifier": "all edges, angles, deviations, occupancies and numbers of cells; all changes within the deviations", "why_tests_cant": "a bound on every change within the deviations is a statement about derivatives in six directions for every cell; tests never look at deviations of derived quantities", "anchors": ["src/extensions/libpdffit2/metric.cc:36", "src/extensions/libpdffit2/metric.cc:101", "src/extensions/libpdffit2/metric.cc:164", "src/extensions/libpdffit2/metric.cc:181", "src/extensions/libpdffit2/metric.cc:277", "src/extensions/libpdffit2/stru.cc:144"]}
{"id": "C71", "title": "Parameters, counts and correlations in the characters of the results and of the log", "statement": "From the characters of the results text of a session with a refinement one reads the number of constraints, of refined and of fixed parameters; if a parameter is refined, every parameter once by ascending id, three in a row, as its id, its value with six digits and its deviation with two (none for a fixed parameter or a deviation below 1e-8 of the value, 'NaN' for an undefined one), the number of iterations, the reduced chi squared and Rw, and a line for each pair of refined parameters with a correlation above 0.8 in size, or a line that there are none. These parts stand after the sections of the phases and data sets. The log of a refinement step shows the refined parameters only, each once by ascending id with six decimals, four in a row. Infinite and undefined values are shown as such.", "quantifier": "all histories of the parameter table (any number of parameters, any ids), values, deviations and covariances, also infinite ones; all phases and data sets", "why_tests_cant": "the rows depend on the number of parameters and on which of them is last, the widths on every value; the tests never read the parameter part of the results or the log", "anchors": ["src/extensions/libpdffit2/output.cc:253", "src/extensions/libpdffit2/output.cc:277", "src/extensions/libpdffit2/output.cc:302", "src/extensions/libpdffit2/fit.cc:149", "src/extensions/libpdffit2/StringUtils.cc:38", "src/extensions/libpdffit2/pdf.cc:918"]}
{"id": "C72", "title": "The log of a refinement tells its course", "statement": "A refinement that finishes logs a header with the data sets and the phases selected for each, then for k = 0, 1, ..., n a block numbered k with the free parameters of that state (ascending id, six decimals, four in a row), its chi squared, the reduced chi squared (chi squared over data points minus free parameters) and Rw, marked as stagnating exactly if k is at least 2 and chi squared fell by no more than the tolerance times the previous value, then a final block that shows what the object keeps, and a closing rule. While searching the numbers count 0 to n, the chi squared values start with that of the given parameters, never rise, and the last two are that of the kept parameters. Whatever the outcome, the iterations completed so far are all in the log, in order, and the closing rule is there if and only if the refinement succeeded.", "quantifier": "all parameter tables, data sets and selected phases, all model functions including ones that fail, all tolerances and numbers of iterations", "why_tests_cant": "the log goes to the screen and no test reads it; its length and marks depend on the whole course of the refinement, and its end on whether and where a calculation fails", "anchors": ["src/extensions/libpdffit2/fit.cc:54", "src/extensions/libpdffit2/fit.cc:149", "src/extensions/libpdffit2/fit.cc:40", "src/extensions/libpdffit2/pdflsmin.cc:93", "src/diffpy/pdffit2/pdffit.py:329"]}
{"id": "C73", "title": "Linear parameters are refined to the least squares solution", "statement": "If the calculated values depend linearly on the free parameters (such as scale factors) and no combination of these leaves all weighted points unchanged, then every refinement succeeds, exactly one set of parameter values has the least sum of squares, and the refined parameters are not farther from it than the starting ones (distances in units of the individual deviations). The sum of squares reached exceeds the least one by at most 10^-(n+2)/4 times the squared distance of the start after n iterations, n at least 4, and with correlation bounded by k the distance itself shrinks by k^n * 10^-(3+4+...+(n+2)). A single free parameter ends within 10^-18 of its initial distance from the best value, the other parameters being unchanged. Data that some values reproduce exactly are fitted with chi squared at most 10^-6/4 of the squared distance of the start, and these values are approached at the same rate.", "quantifier": "all models linear in the free parameters, all data, non-negative weights, start values, numbers of free and fixed parameters, all tolerances, whatever was refined before", "why_tests_cant": "convergence to the minimum is a statement about all data and starting values; a test fits a few data sets to a few digits, and cannot tell a minimum from a point where the search stopped early", "anchors": ["src/extensions/libpdffit2/pdflsmin.cc:36", "src/extensions/libpdffit2/pdflsmin.cc:175", "src/extensions/libpdffit2/fit.cc:40", "src/extensions/libpdffit2/fit.cc:54"]}
{"id": "C74", "title": "What is calculated for given parameters does not depend on the parameters tried before", "statement": "During a refinement each trial overwrites the constrained variables, wraps atom positions into their block of cells, and rewrites the table of derivatives of the variables. Whatever sequence of parameter values was tried before, including trials that ended with an exception, a calculation for parameter values at which every constraint has a value leaves the same variables and derivative table, and yields the same PDFs and derivatives with respect to the parameters (or the same exception), as if it had been the first one.", "quantifier": "all structures, data sets, constraints (formulas and the fixed forms), fixed and free parameters, all sequences of trials of any length, all final parameter values", "why_tests_cant": "the calculated values are a function of the parameters only if no trial leaves a trace in variables, wrapped coordinates, reference flags or stale derivative cells; a test sees a few sequences", "anchors": ["src/extensions/libpdffit2/fit.cc:303", "src/extensions/libpdffit2/fit.cc:627", "src/extensions/libpdffit2/fit.cc:558", "src/extensions/libpdffit2/pdflsmin.cc:189"]}
{"id": "C75", "title": "A refinement of phase scale factors ends with the least squares scale factors", "statement": "When the constraints are those of phase scale factors, each a constant plus multiples of parameters (p[1], or 1 - p[1], or any formula that amounts to this), the PDF calculated for any parameter values is the sum over the phases of the PDF of the phase alone at scale factor 1, times the scale factors; the derivatives used in the refinement are the exact, constant slopes. A refinement of such parameters ends after 4 to 100 iterations at the unique least squares scale factors, up to the stated bound in the sum of squares and in the parameters, for every starting point, unless some combination of the free parameters leaves the PDFs unchanged.", "quantifier": "all sessions of setting, fixing and freeing parameters, constraints, variables and calculations; all structures with any number of phases and atoms, all data sets of any length with any selection of phases and atoms, all weights >= 0, all starting values", "why_tests_cant": "a test refines one scale factor of one example from one start; that the whole chain of constraint evaluation, peak summation, termination ripples, derivative columns and damped steps is linear and ends at the optimum for all structures and starts is a theorem about all of them together", "anchors": ["src/extensions/libpdffit2/fit.cc:303", "src/extensions/libpdffit2/pdf.cc:154", "src/extensions/libpdffit2/pdf.cc:416", "src/extensions/libpdffit2/pdflsmin.cc:189", "src/extensions/libpdffit2/fit.cc:130"]}
{"id": "C76", "title": "After a refinement the parameters, variables and PDFs belong together", "statement": "The trial calculations of a refinement overwrite the variables, the derivatives of the variables and the PDFs of the data sets; a rejected trial puts back only the parameters. Nevertheless a refinement takes the course it would take if every trial started from the state after the setup: the same iterations, solver arrays, sums of squares, parameters and exceptions. And when it returns, the parameters are those of the last accepted trial, every constrained variable has the value of its constraint for these parameters (coordinates moved by whole blocks into the block), every other variable is as it was before (coordinates likewise), and the PDFs are those of the variables in memory. In particular, scale factors read back after a refinement of scale factors are the least squares ones.", "quantifier": "all sessions of setting, fixing and freeing parameters, constraints, variables and calculations; all structures and data sets; all tolerances and all numbers of accepted and rejected trials, successful or ending with an exception", "why_tests_cant": "whether a rejected trial leaves a trace depends on the sequence of trials, on constraints shared between variables and on stale entries of the derivative table; tests compare the parameters of a few smooth refinements in which almost every trial is accepted", "anchors": ["src/extensions/libpdffit2/fit.cc:54", "src/extensions/libpdffit2/fit.cc:303", "src/extensions/libpdffit2/pdflsmin.cc:36", "src/extensions/libpdffit2/pdflsmin.cc:148", "src/extensions/libpdffit2/fit.cc:130", "src/extensions/libpdffit2/fit.cc:311"]}
{"id": "C77", "title": "The refinement uses the derivative of the calculated PDF with respect to each parameter", "statement": "After any session of setting parameters, constraints and variables: if a free parameter is used in the constraint of one variable, by a formula or a built-in constraint that is smooth at the present parameters, then the number that the refinement uses as derivative of a point of the PDF with respect to this parameter (the product of the table of derivatives by variables and the table of derivatives of the variables by parameters) is the derivative of the PDF that a new calculation gives when the parameter is changed. For constraints of scale factors, particle diameter, occupancies and damping this is the derivative of the numbers put out; for peak widths, displacements, positions and cell edges the points that each peak reaches are held fixed, as in C44.", "quantifier": "all structures, data sets, sessions, formulas, parameter values; every data set and every point of the fit range; every refined variable whose column of derivatives is right by C44", "why_tests_cant": "tests compare refined values; a derivative that belongs to another column, misses the inner derivative of the formula or a factor only slows the convergence, and this for some combinations of variables and formulas only", "anchors": ["src/extensions/libpdffit2/fit.cc:303", "src/extensions/libpdffit2/fit.cc:361", "src/extensions/libpdffit2/fit.cc:558", "src/extensions/libpdffit2/fit.cc:565", "src/extensions/libpdffit2/pdf.cc:154", "src/extensions/libpdffit2/pdflsmin.cc:175"]}
{"id": "C78", "title": "Derivatives with respect to shared parameters are those of the calculated PDF", "statement": "After any session of setting parameters, constraints and variables: a free parameter may be used in any number of constraints, by formulas or built-in constraints that are smooth at the present parameters (equal cell edges, isotropic displacements, a site shared out between atoms). The number that the refinement uses as derivative of a point of the PDF with respect to this parameter is the derivative of the calculated PDF with all these variables moving together. If they are scale factors, particle diameters, occupancies and damping factors, this is the derivative of the numbers that new calculations with the changed parameter put out; for positions, displacements, peak widths and cell edges the points that each peak reaches are held fixed, as in C44.", "quantifier": "all structures, data sets, sessions, formulas, parameter values; every free parameter whatever constraints it is used in; every data set and every point of the fit range", "why_tests_cant": "tests refine a few symmetric structures and compare the results; a derivative that leaves out one of several constraints, counts one twice or takes partial derivatives at different points only slows convergence", "anchors": ["src/extensions/libpdffit2/fit.cc:303", "src/extensions/libpdffit2/fit.cc:361", "src/extensions/libpdffit2/fit.cc:558", "src/extensions/libpdffit2/fit.cc:565", "src/extensions/libpdffit2/pdf.cc:154", "src/extensions/libpdffit2/pdflsmin.cc:175"]}
{"id": "C79", "title": "What is read between two steps of a refinement", "statement": "A refinement may be run one step at a time (refine_step), and the session read in between: parameters (getpar), variables (getvar) and calculated PDFs (getpdf_fit). After any number of calls that returned 0, parameters are the best so far, those of the abstract solver; variables and PDFs belong together and are those of the last trial, which solves the damped normal equations of the call before, is taken exactly if it lowers chi squared, and keeps fixed parameters. If it was not taken, parameters and variables do not belong together (refuted: a scale factor constrained to the square of parameter 1, which is 1/10, is far from 1/100 after the first step); they do when the refinement has ended (C76).", "quantifier": "all structures, data sets, sessions, formulas, tolerances and numbers of steps, fresh refinements in any state of the static workspace", "why_tests_cant": "tests run refinements to their end, where parameters and variables agree again; the mismatch shows only between steps and only after a rejected trial", "anchors": ["src/extensions/libpdffit2/fit.cc:54", "src/extensions/libpdffit2/fit.cc:303", "src/extensions/libpdffit2/pdflsmin.cc:57", "src/extensions/libpdffit2/pdflsmin.cc:148", "src/extensions/libpdffit2/pdflsmin.cc:175"]}
{"id": "C80", "title": "The scattering factors set for a phase are those its PDF is calculated with", "statement": "After any sequence of structures read, set_scat, reset_scat, get_scat and clearing, the PDF calculation reads for every atom, through its atom_type pointer, the factor the calls give its element in its phase: the value of the latest set_scat for that phase, element and radiation since the last reset_scat, else that of the table; it is what get_scat reports. Atoms of one phase share an atom_type exactly when they are the same element, however spelled. Calls on other phases, elements or radiations, and structures read later or not loaded, change neither factor nor PDF. Multiplying all factors of a phase by one number other than zero does not change its PDF. With the X-ray factors of the table (the atomic numbers) the averages divided by are positive; a phase whose average factor is zero makes every point of the PDF not finite, without an error. With the neutron lengths of the table this can happen (refuted: polonium).", "quantifier": "all sequences of calls, symbols, phases, atoms, radiations, data sets and structures", "why_tests_cant": "tests check one symbol in one phase and read back the value by get_scat, which looks the symbol up and does not follow the pointers kept in the atoms; nothing tests that the calculation uses it, after which histories, or that other phases are unaffected", "anchors": ["src/extensions/libpdffit2/Atom.cc:52", "src/extensions/libpdffit2/stru.cc:398", "src/extensions/libpdffit2/stru.cc:412", "src/extensions/libpdffit2/pdf.cc:795", "src/extensions/libpdffit2/LocalPeriodicTable.cc:93", "src/extensions/libpdffit2/scatlen.cc:74"]}
{"id": "C81", "title": "The calculated PDF does not depend on how the sample is listed", "statement": "The PDF is the same, value for value, when the atoms of a phase are listed in another order (with their ignored flags), when all are moved by one vector, when an atom is listed in another cell, when a site is split into atoms sharing its occupancy, or when an empty site is left out; and when the phases are listed in another order with the selections of the data sets. It holds for one phase, for the mixture, and for the whole calculation over all data sets including the wrapping of coordinates. Splitting an atom while another atom is ignored changes the PDF (refuted): the share of ignored pairs is counted per atom, not per occupancy.", "quantifier": "all structures, numbers of atoms and phases, data sets, orders, origins, splittings; atoms within one cell and no stepcut except for the order of phases", "why_tests_cant": "tests compare calculated values of a few structures, each listed in one way; nothing compares two listings of one sample", "anchors": ["src/extensions/libpdffit2/pdf.cc:154", "src/extensions/libpdffit2/pdf.cc:804", "src/extensions/libpdffit2/fit.cc:303"]}
{"id": "C82", "title": "A crystal described with a larger cell has the same PDF", "statement": "A phase whose edges are multiplied by whole numbers k0, k1, k2 and that lists the k0 k1 k2 copies of every atom, in any order, with coordinates in fractions of the new edges and the same displacement tensors, occupancies and ignored flags, has the same PDF, value for value: one phase, a mixture, or the whole calculation over all data sets including the wrapping of coordinates. The larger cell can be calculated whenever the smaller one can.", "quantifier": "all structures of one cell (any edges, angles, atoms, tensors), multiples, orders of the copies, data sets; no stepcut", "why_tests_cant": "tests calculate a few structures each in one cell; the equality depends on the search for lattice points, the density, the normalisation by the number of atoms and the displacement tensors in reciprocal axes all scaling together", "anchors": ["src/extensions/libpdffit2/pdf.cc:154", "src/extensions/libpdffit2/pdf.cc:850", "src/extensions/libpdffit2/metric.cc:162", "src/extensions/libpdffit2/fit.cc:303"]}
{"id": "C83", "title": "The order of the crystal axes does not matter", "statement": "A phase whose axes are named in another of the six orders, with edges, angles, numbers of cells, coordinates and all six elements of the displacement tensors renamed accordingly, has the same PDF, value for value: one phase, a mixture, or the whole calculation over all data sets including the wrapping of coordinates, with any atoms ignored. The renamed phase can be calculated whenever the original can.", "quantifier": "all structures (any edges, angles, blocks of cells, atoms, anisotropic tensors), all six orders of the axes per phase, all selections of atoms, all data sets; no stepcut", "why_tests_cant": "tests calculate structures with one order of axes; a mixed-up index of an off-diagonal tensor element, reciprocal edge or search bound shows only for low symmetry cells in some of the orders", "anchors": ["src/extensions/libpdffit2/pdf.cc:154", "src/extensions/libpdffit2/pdf.cc:850", "src/extensions/libpdffit2/metric.cc:162", "src/extensions/libpdffit2/PointsInSphere.cc:30"]}
{"id": "C84", "title": "The choice of the basis vectors of the lattice does not matter", "statement": "A crystal written in any other basis of its lattice (an integer matrix with an integer inverse), with edges and angles of the new vectors, coordinates transformed and moved by any lattice translations and a common shift, and displacement tensors transformed, has the same PDF, value for value, in mixtures and in whole calculations. Every structure can be written in every such basis. The image of a structure under inversion has the same PDF. Descriptions connected by any chain of such changes, larger cells, orders of axes and listings (C81, C82, C83) give the same PDF.", "quantifier": "all structures of one cell (any edges, angles, atoms, anisotropic tensors), all unimodular integer matrices, lattice translations, shifts, selections of atoms, data sets, chains of any length; no stepcut", "why_tests_cant": "tests calculate each structure in one setting; equality needs the metric, the reciprocal edges that normalise the tensors, the volume and the search for lattice points to be right together for oblique cells", "anchors": ["src/extensions/libpdffit2/pdf.cc:154", "src/extensions/libpdffit2/pdf.cc:850", "src/extensions/libpdffit2/metric.cc:162", "src/extensions/libpdffit2/PointsInSphere.cc:42"]}
{"id": "C85", "title": "Scattering factors count relative to each other, and a common factor of occupancies is a scale", "statement": "Multiplying the scattering factors of all atoms of a phase by a factor (one per kind of radiation, not 0) does not change the calculated PDF. Multiplying all occupancies of a phase by k (not 0) and dividing its scale factor by k does not change it either, so a refinement cannot tell a common occupancy from the scale. Holds for one phase, mixtures with factors per phase, and whole calculations, with any atoms ignored.", "quantifier": "all structures, factors other than 0, mixtures, selections, data sets; no stepcut", "why_tests_cant": "tests use tabulated scattering factors and given occupancies; the equality needs weights, normalisation, density and baseline to carry the right powers of both factors", "anchors": ["src/extensions/libpdffit2/pdf.cc:154", "src/extensions/libpdffit2/pdf.cc:804", "src/extensions/libpdffit2/metric.cc:162"]}
{"id": "C86", "title": "The sequencer of reflections gives every lattice plane family in the range once", "statement": "ReflectionsInQminQmax visits, once each, all (h k l) whose scattering vector length Q = 2 pi / d lies in [qmin, qmax), where d is the smallest length of a real vector on the plane h x + k y + l z = 1 of the crystal; Q() and d() report these numbers. ReflectionsInDmaxDmin does the same for dmin < d <= dmax. reciprocal() yields the parameters of a cell whose metric is the inverse metric. Nothing beyond the inner limit is visited when no reflection lies exactly on it; that it never happens is refuted: with dmax the spacing of (0 0 j) all (0 0 l) and (0 0 0) come.", "quantifier": "all cells with positive edges and closing angles, all limits, all indices", "why_tests_cant": "the classes have no tests; tests could only compare finitely many cells and ranges with tables", "anchors": ["src/extensions/libpdffit2/PointsInSphere.cc:56", "src/extensions/libpdffit2/PointsInSphere.cc:207", "src/extensions/libpdffit2/PointsInSphere.cc:229", "src/extensions/libpdffit2/PointsInSphere.h:153"]}
{"id": "C87", "title": "Work arrays with subscripts from 1 have their elements apart and are freed whole", "statement": "dmatrix, dvector and ivector give arrays in which every subscript within the ranges asked for names an element of its own: it can be written and read back at any time without touching other elements or other memory. The matching free call gives back exactly the blocks allocated and nothing else; empty ranges allocate and free nothing. For matrices with subscripts from 1 all pointers formed lie in their arrays. For vectors this is refuted: v - nl is formed before 1 is added.", "quantifier": "all subscript ranges, all earlier contents of memory, all sequences of writes to elements", "why_tests_cant": "an element outside of the block or shared by two subscripts usually goes unnoticed at run time, and tests try a few sizes", "anchors": ["src/extensions/libpdffit2/nrutil.cc:38", "src/extensions/libpdffit2/nrutil.cc:60", "src/extensions/libpdffit2/nrutil.cc:80", "src/extensions/libpdffit2/nrutil.cc:108"]}
{"id": "C88", "title": "Matrix objects behave as values and own their memory", "statement": "Any program on matrix objects - default, sized and copy construction, assignment (to itself as well), filling, resize, clear, element writes, destruction - that uses only existing objects and elements never reads or writes outside of a live buffer and never deletes one twice. Every object has the shape and elements it would have if matrices were plain values, so changing one object never changes another. Every buffer not yet deleted belongs to exactly one object and has exactly its size; when all objects are gone all buffers have been deleted.", "quantifier": "all element types, all programs of any length on any number of matrices of any shape", "why_tests_cant": "double deletes, leaks and shared buffers depend on the order of operations, and there are infinitely many orders; memory errors often go unnoticed at run time", "anchors": ["src/extensions/libpdffit2/matrix.h:44", "src/extensions/libpdffit2/matrix.h:60", "src/extensions/libpdffit2/matrix.h:65", "src/extensions/libpdffit2/matrix.h:81", "src/extensions/libpdffit2/matrix.h:100"]}
{"id": "C89", "title": "Phases and data sets made by a PdfFit object are deleted once", "statement": "Whatever structures and data are read, allocated and reset, in any order and with any errors in between, no Phase or DataSet object is deleted twice, the lists of phases and data sets hold distinct pointers to existing objects, and after the destructor no object is left over - except one data set for each call of alloc that refuses its arguments. That nothing is left over in the end is refuted: alloc makes the data set before it tests its arguments.", "quantifier": "all sequences of read_struct, read_data, alloc and reset calls with any results and arguments", "why_tests_cant": "leaks and double deletes do not show in results and depend on the sequence of calls and errors", "anchors": ["src/extensions/libpdffit2/stru.cc:128", "src/extensions/libpdffit2/pdf.cc:48", "src/extensions/libpdffit2/pdf.cc:1294", "src/extensions/libpdffit2/pdffit.cc:79"]}
{"id": "C90", "title": "The table of elements stays consistent while elements are defined, changed, restored and deleted", "statement": "Starting from any table, after any sequence of defAtomType, deleteAtomType, reset, resetAll and changes of values that renames no element and deletes neither deuterium nor tritium, no deleted object is used, every symbol or name found leads to an existing element called so, defining makes exactly the new symbol and name found and deleting exactly those of the element not found, resetAll gives each element the values of its definition, and the destructor deletes every object once. Refuted: reset of one element restores it (it throws for every pointer the table gives out), deletion of deuterium (2-H then leads to the deleted object), deletion after a change of the symbol.", "quantifier": "all tables, all sequences of calls and writes, all symbols and names", "why_tests_cant": "dangling entries show only for particular sequences of deletions and lookups, and the use of deleted objects often goes unnoticed", "anchors": ["src/extensions/libpdffit2/PeriodicTable.cc:121", "src/extensions/libpdffit2/PeriodicTable.cc:146", "src/extensions/libpdffit2/PeriodicTable.cc:159", "src/extensions/libpdffit2/PeriodicTable.cc:172", "src/extensions/libpdffit2/PeriodicTable.cc:182", "src/extensions/libpdffit2/PeriodicTable.cc:202"]}
{"id": "C91", "title": "Vectors and matrices are printed whole to the stream given", "statement": "A vector that is not empty is printed as its elements between commas in parentheses, to the stream given. A matrix with rows and columns printed to *pout is the list of its rows in that form; print writes one numbered line per row. Refuted: an empty vector (printed as an opening parenthesis alone) and a matrix printed to another stream (which gets opening parentheses only; the elements go to *pout).", "quantifier": "all element types and texts of elements, all lengths and shapes", "why_tests_cant": "tests print a few small matrices, usually to the standard stream for which it works", "anchors": ["src/extensions/libpdffit2/matrix.h:191", "src/extensions/libpdffit2/matrix.h:206", "src/extensions/libpdffit2/matrix.h:220"]}
{"id": "C92", "title": "Lists given as data arrive as the numbers in them, or an exception is raised", "statement": "Lists of numbers of one length, not empty, reach PdfFit::read_data_arrays as just these numbers, and Python sees a return or a dataError as it stores or refuses them. Lists of different lengths, or one list beside something that is no list, give a ValueError with nothing stored. Refuted: that the call always ends in a return or exception (no argument is a list: new double[-1] throws and the process is killed; empty lists: undefined behaviour); that a call raising an exception stores nothing (a value that is no number is stored as -1 and a SystemError follows); that the work arrays are deleted (they are left when the data are refused).", "quantifier": "all arguments, lists of any length with any elements, whatever PdfFit::read_data_arrays decides", "why_tests_cant": "tests give a few well formed lists; the kill and the leak need arguments outside of these", "anchors": ["src/extensions/pdffit2module/misc.cc:57", "src/extensions/pdffit2module/misc.cc:217", "src/extensions/pdffit2module/misc.cc:235", "src/extensions/pdffit2module/misc.cc:250", "src/extensions/libpdffit2/pdf.cc:1392", "src/diffpy/pdffit2/pdffit.py:242"]}
{"id": "C93", "title": "The version of the program is defined once", "statement": "In any history of calls PdfFit::version gives 1.0? until a version is defined and from then on the first one defined; defining it again as the same is accepted, as another is refused with nothing changed. Loading the module defines the version of the Python package. Refuted: that a transfer which returns leaves no Python exception set (no __version__ to be found).", "quantifier": "all histories of calls of any length, all texts", "why_tests_cant": "the version is a static variable: a test process loads the module once and sees one history", "anchors": ["src/extensions/libpdffit2/pdffit.cc:33", "src/extensions/pdffit2module/pdffit2module.cc:38"]}
