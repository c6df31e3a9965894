# Design of the verification of diffpy.pdffit2

The object of study is the C++ engine in `/repo/src/extensions/libpdffit2`, with
the Python bindings in `/repo/src/extensions/pdffit2module/misc.cc` and the class
PdfFit of `/repo/src/diffpy/pdffit2/pdffit.py`.
All proofs are about Gallina functions written by hand from that source; every
model definition carries a comment `(* models FILE:LINES *)`.
Nothing was compiled or run from /repo.

## Layout of `rocq/theories`

| file | what it holds |
|------|---------------|
| `XxxModel.v`  | executable (or Reals-valued) model of one part of the code, no proofs |
| `XxxSpec.v`   | small, separate specification vocabulary (only where needed) |
| `XxxProof.v`  | lemmas |
| `XxxProps.v`  | the property theorems, each `exact`ing a lemma, with a concrete `Example` and `Print Assumptions` |

## Trusted base

* The Coq 8.16.1 kernel (and `coqchk`).
* `Print Assumptions` below each property theorem.  Theorems over `nat`, `Z`,
  lists and generic carriers are "Closed under the global context".  Theorems
  over the real numbers depend on the standard library's
  `ClassicalDedekindReals.sig_forall_dec`, `ClassicalDedekindReals.sig_not_dec`
  and `FunctionalExtensionality.functional_extensionality_dep` (and
  `Classical_Prop.classic` where the library's own real analysis uses it).
  No other axiom is used.
* The reading of the C++: the model is a hand transcription.  In particular
  - `double` is idealised.  Where rounding does not matter the carrier is a
    type parameter or `R`; statements about `R` say nothing about rounding,
    overflow, NaN (except where NaN is modelled explicitly, as in C09).  The
    exception is C65, where the r grid and the indices derived from it are
    computed in binary64 with Flocq's operations and nothing is idealised.
  - `int`/`unsigned` are `Z`/`nat` with the conversions written out where they
    matter (parameter ids, -1 for ALL, indices of variables).
  - out-of-bounds access, null dereference and non-termination are explicit
    outcomes (`UB`, `Diverges`) of the model, never a default value.
  - C++ `istringstream` extraction is modelled on lists of characters as
    libstdc++ does it (maximal munch, eof/fail flags).

## What is modelled, per property

(see the table; it is kept current as files are added)

| property | model | proof idea |
|---|---|---|
| C01 C02 | parameter table of `Fit` (`p`,`ip`,`id`) as three parallel lists, ops as a step function | refinement to a finite map by induction over the op list |
| C03 C04 C05 | constraint table (`var`,`form`,`fconstraint`,`idef`,`ctype`,`vref`,`dvdp`) and `fill_variables` | invariants; refutation witnesses for duplicate and stale derivative |
| C06 C07 C08 | character-level model of `parser.cc` over an abstract number structure | induction over formula trees; derivative by instantiating with R |
| C09 | control skeleton of `refine_step` with arbitrary step functions (`LsModel`) | induction on the number of calls (`CtlProof`) |
| C10 C11 C13 C15 C52-C55 | `mrqmin`, `mrqcof`, `covsrt`, `gaussj` with the statics of `mrqmin` explicit, model evaluation arbitrary | invariant over the step sequence (`LsStep`, `LsRun`), independence from left-overs (`LsRaw`), verdict and safety (`LsMore`), witnesses (`LsCases`, `LsCases2`) |
| C12 | a world of objects sharing `fit_running` and the statics of `mrqmin` | simulation; witnesses for the refuted parts |
| C14 | `mrqcof` accumulation, `getcrw`, `getdsrw`, `weighedSquareObs` | induction over points, over R |
| C16 | `gaussj` over an abstract field | loop invariant: each pivot step is a row operation |
| C17 | `covsrt` | induction over the swap loops |
| C18 | `order_by_id` | sorting + permutation |
| C19 C20 C22 C25 C48 | session state machine `SessModel`: phases, data sets, selections and the reference vectors, with addresses from a counter so that dangling references are visible; readers are represented by their result | invariant by induction over op lists (`SessProof`, `SessProof2`), witnesses in `SessEx` |
| C21 | the ignore sets of `SessModel` | simulation of the whole history by the status 'last naming call' (`SessProof3`) |
| C23 C24 C42 C43 C49 C56 | `DataSet::determine`, `extendCalculationRange`, `msdAtoms`, `circum_diameter`, `setup_weights`, `applyQmaxCutoff`, `fit_theory` without derivatives (`PdfModel`; reals with one more value for NaN/inf, int conversions checked) | index arithmetic (`PdfProof`), completeness of the pair search (`PdfGeo`), pair loop to ordered sum (`PdfSum`, `PdfPhase`), peaks (`PdfPeak`), discrete Fourier sums (`PdfFft`), assembly (`PdfTotal`), arbitrary atoms (`PdfSafe`), witnesses (`PdfEx`), final forms (`PdfFinal`) |
| C26 | the list building of `getR`, `getpdf_fit`, `getpdf_obs`, `getpdf_diff` (`DataModel`) | index arithmetic (`DataPlot`), composed with C24 and C27 |
| C27 C28 | `DataSet::read_data_stream`, `read_data_arrays`, `isRegular` on character streams with eofbit (`DataModel`) | printed tables as specification; streams refined to lists of lines, induction over lines (`DataProof`, `DataFinal`); divergence as NoFuel for every fuel |
| C29 C58 | `read_struct_stream`, `read_header`, `vget`, `lstrip`, `substitute`, `read_atoms`, Atom's `operator>>` on characters (StruModel) | what each line means is an inductive relation on texts (`says`, `lists_atoms`), reading follows it by induction over the lines; inserted lines by the keyword the reader remembers |
| C30 | `save_struct` to characters, read back through the reader | every printed line says the rounded values; rounding is idempotent; printing of a rounded value is the same |
| C59 | the same | invariant of the header state and of the atoms, over arbitrary texts |
| C31 | `lattice`, `tensor`, `skalpro` (`MetricModel`; reals, no standard deviations) | real algebra; spherical triangle inequality for the angles |
| C32 C33 | `PointsInSphere` iterator and `LatticeParameters` (`SphereModel`) | each `next_*` loop refined to a list of integer ranges; membership by completing squares |
| C34 C35 C36 C57 | `make_nearest`, `bond_angle`, `bond_length_atoms`, `bond_length_types`, `selectAtomsOf`, `dtensor`, `dskalpro` (`BondModel`; the tensors are part of the state, so they can be stale) | completeness of the point search of C32/C42 and a generic stable sort (`BondProof`), folding of coordinates (`BondNear`), Cauchy inequality (`BondAngle`), derivatives along a change within the standard deviations (`BondErr`), witnesses (`BondEx`), assembly (`BondFinal`) |
| C37 C38 | `MathUtils.h`, `ShapeFactors.h` | derivatives over R |
| C39 | `get{Atom,Cell,Mass}PhaseFractions`, `averageAtomicMass`, `averageScatteringFactor` (`ScatModel`) | finite sums over R, partial derivatives of the shares (`FracProof`) |
| C40 C41 | `LocalPeriodicTable`, `Phase::set_scat`, `reset_scat`, `PdfFit::get_scat`, `PeriodicTable::lookup`, `init` (`ScatModel`) with the full table of elements (`ElementTable`, generated from PeriodicTable.cc) | string induction, computed facts about the keys of the table, refinement of the history to 'last value set' (`ScatProof`) |
| C46 | `matrix<T>` | index arithmetic |
| C47 | `FormatValueWithStd`, printing of doubles with a precision or in fixed format, `istream >> double` (FmtModel) | the digits printed are those of the nearest decimal with P digits (`general_print`), fields by cases on width and side; reading back through the scanner; a double is a sign and a real magnitude |
| C60 | `save_pdf`, `save_dif`, `build_pdf_file`, `build_dif_file`, doubles with infinities and NaN, printing with showpoint (SaveModel) | each line is a row of numerals of the data grammar of C27, so reading back is C27 plus rounding bounds; SaveAny: also with infinities, NaN and zero weights |
| C61 | `Fit::output`, `save_res` as contents of the text, on the parameter table of C01 and `order_by_id` of C18; division with infinities (ReportModel) | loops over the order as sets of pairs, histories for values and flags |
| C62 | `selectedAtomsString`, `atom_types`, the maps used (ReportModel) | loop invariant, words of the text grouped by symbol; the element table is checked for distinct upper case symbols by computation |
| C63 | the try blocks of misc.cc around the calls modelled in the other files; `calc`, `fit_theory` and `fit_setup` put together from constraints, lattices and data sets (BindModel) | for every engine function the set of exceptions it can raise, by induction over its loops (BindErr, BindProof); catch clauses compared with that set |
| C64 | class PdfFit of pdffit.py: `__getRef`, `getvar`, `setvar`, `setpar`, `constrain`, the alias ALL and the methods that write references, with the method table of bindings.cc (PyModel) | a grammar of references (PySpec `denotes`); the str functions shown to read exactly that grammar (PyText, PyProof), then composed with the session (C48), parameter table (C01) and constraints (C03); PyFun: texts naming a function of the extension |
| C65 | the r grid in binary64 (Flocq): `alloc`, the ends of the two readers, `range`, `nint`, the fit and calculation ranges, the limits of a peak, `getR` (FloatModel) | rounding is monotone, so indices are ordered (FloatProof, FloatCalc); relative errors bound the quotient by less than half a step (`quo_err`, `grid_acc`); the test of regular spacing is compared with the exact mean step, up to 2^-28 (FloatRead) |
| C66 | `Phase::output`, `DataSet::output`, `save_res` and `Phase::get_scat_string` as texts (OutModel) | the text is a list of lines without line breaks; every field starts with a blank, so words split into values (`put_words`, `row_values`); labels are compared by computation, sections are cut at the lines of dashes (`parts_sections`) |
| C67 | `redirect_stdout`, `restore_stdout`, `RefineStepHelper` and output.py as a machine whose steps are single writes (RedirModel) | invariant over all runs for the buffer and the references (`inv_run`); for one refine_step at a time, text arrived plus text held equals text written (`calm_run`); other interleavings by witnesses |
| C68 | the loading methods of class PdfFit with `stru_files`, `data_files` and `DataSet::name`, opening of files for reading, the four save functions with a file name (FileModel) | the lists are a fold over the calls that succeeded (`step_matches`), on the session of C48 and the readers of C27 and C29; the file system is a function of the name, with a limited room per file |
| C69 | methods blen and bang of class PdfFit with their helpers `_format_value_std` and `_format_bond_length`, get_atoms and get_atom_types, conversion of arguments (BlenModel) | the words of each line are those of the numbers of C34 to C36 by the theorems on `%g` (`bond_line_ok`, `angle_line_ok`); every entry of the list of bonds has atoms of the phase (`types_in`), so no lookup fails; composed with the list of C34 (`bonds_shown`) |
| C50 | `fit_setup`, `fill_errors` and the counters behind `getnpar` (`LayoutModel`) | explicit list of variables, slot arithmetic (`LayoutProof`) |
| C44 C45 | `DataSet::determine` with derivatives, `pdf_derivative`, `fit_setup_derivatives` as sequences of operations on the rows of `fit_a`, addressed through the offsets and `refvar` of `fit_setup` (`DerivModel`, `LayoutModel`) | operations labelled by variable (`DerivRow`, `DerivPair`, `DerivSetup`), each label picked out and compared with a derivative of the specification `fixed_pdf` (`DerivCalc`, `DerivGeo`, `DerivPhase`, `DerivOps`, `DerivOne`), sums over phases (`DerivFinal`), the outputs for variables that do not move peaks (`DerivCut`, `DerivOut`); witnesses: a row of atoms 3 apart in a cell wide across (`DerivWit`, `DerivBad`) |
| C70 | `Phase::lattice` with the deviations of volume, reciprocal volume, reciprocal edges and angles, tensors and density, `Phase::show_lattice` (CellModel; the permutation tensors are left out) | closed forms of the quantities of the inverse metric and their derivatives along a change of the six parameters (CellProof), inequalities between those and the computed deviations, text (CellFinal), witnesses (CellEx) |
| C71 | the characters of `Fit::output` and `Fit::out` on the contents of C61, `FormatValueWithStd` with infinities, the whole text of `save_res` (FitTextModel) | cells in rows: texts with a mark at the end of a row are grouped into lines, each group read back as its entries (FitTextProof); joined with the histories of C61 (FitTextFinal) |
| C72 | the text written by `refine`/`refine_step` (header, start, final block, closing rule), `Fit::out` and the block of each iteration in `mrqmin`, beside the refinement of the Ls files (RunLogModel); UB when a data set selects a phase that does not exist | each step of the search appends one block, invariant on text and numbers together (RunLogProof); blocks joined over the whole search and read back line by line (RunLogFinal), for any outcome (RunLogAny) |
| C73 | no new definitions: `refine`, `refine_step`, `mrqmin`, `mrqcof` of LsModel with a model function that is linear in the free parameters | chi squared is the least one plus a quadratic form of the distance (LinRun); error of a damped step from the damped equations, so every step is accepted and the damping falls tenfold each time (LinProof); existence of the minimum from regularity of the normal equations; invariant over the iterations and the final call (LinFinal) |
| C74 | `fit_theory` with derivatives put together: `fill_variables`, wrapping of the coordinates in memory, phases and data sets loaded from memory, lattices, `determine` with `fit_a`, and the product `fit_b = fit_a * dvdp` (TheoryModel; the variables are cells of the memory of ConModel) | cells of `dvdp` that a fill writes depend on the parameter table only and all others keep their value, also in failed fills; the remainder is idempotent; relation between states preserved by every trial and sufficient for equal results (TheoryMem) |
| C75 | no new definitions: `fit_theory` of TheoryModel with its derivatives as the model function of `refine` in LsModel, states reached by `setpar`/`constrain`/`fixpar`/`freepar`/`setvar`/calculations | `determine` is linear in the scale factors, entry by entry, and the column of a scale factor is the PDF of this phase alone (ScaleCols, on the closed form of DerivFinal); constraint values and `dvdp` of affine constraints (ScaleMem, on C04 and C05); only the scale factors move between trials (ScaleLoad, ScaleFinal); the product `fit_a * dvdp` is the constant slope, so the hypothesis `linear` of C73 holds (ScaleLin); example with two atoms where the scale factor has an influence (ScaleEx) |
| C76 | `mrqcof`, `mrqmin`, `refine_step` on a state that holds parameters, constraints, derivative table, variables and PDFs (RunModel: `fit_theory` with and without derivatives, `fit_setup`), `fit.p` written where the program writes it | simulation between this program and the solver of LsModel for any state with an invariant that `put`, `calc` and the last calculation respect (RunProof); the invariant is the agreement of C74 with the state after the setup, constraints stay solvable because the defined parameters stay the same, the calculation without derivatives gives the PDFs of the one with them (RunFinal); relational description of the end state (RunSpec); a refinement that ends, and the scale factors of C75 in memory (RunEx) |
| C77 | no new definitions: the refinement's `fit_theory` of TheoryModel (values and `fit_b`), `fit_theory` without derivatives of RunModel as the calculation that is differentiated, states reached by sessions of ConModel | constraint values as functions of one parameter and the column of `dvdp` (GradFill, on C05); memory after a changed parameter differs in one variable, and what the phases and data sets read from it is the change of C44's `data_with`/`phases_with` with refreshed lattices (GradLoad); entries of `fit_a * dvdp`: one non-zero term, all other columns numbers (GradSet); one neighbourhood for all data sets by continuity, chain rule (GradFinal); example: scale factor p[1]^2 and displacement 1 - p[2] (GradEx) |
| C78 | no new definitions; as C77, with a parameter used in any number of constraints | functions of memory that have a derivative along every differentiable path of the constrained variables, closed under the operations of the PDF (HadCalc); a phase's term with fixed pairs and points is such a function, thresholds met or kept (HadPdf, HadLoad); its partial derivatives are C44's columns, so the entry of `fit_a * dvdp` is the derivative along the path of the constraints, and the cutoff is linear (HadSet); calculations that differ in scales, diameters, occupancies and damping only have the same pairs and points (HadAlike), stay sane in a neighbourhood by continuity (HadNear); assembly over data sets (HadFinal); example: one parameter in a scale factor, an occupancy and, squared, the data scale; another an isotropic displacement (HadEx) |
| C79 | no new definitions; `refine_step` of RunModel called any number of times | one step keeps the invariant of C76 and leaves the memory calculated for the trial, whose increments solve the damped normal equations of the normal equations kept from the step before (BetwProof, along LsStep); the trial is taken exactly if chi squared falls (BetwFinal, induction over the calls, in both directions between this program and LsModel); theory of a session whose scale factor is the square of a parameter, first trial rejected (BetwEx) |
| C80 | the tables of atom types (the shared one and one per phase), the pointers to their entries kept in the atoms, reading a structure, set, reset, get (FactModel; `setup`/`get_scat` of ScatModel, `determine` of PdfModel) | simulation of the tables with pointers by the histories of C40, every pointer of a phase is into that phase's own table (FactProof); weights are invariant under a common factor, a zero average spoils every weight and the density term (FactPdf); unrelated calls (FactFinal); polonium (FactEx) |
| C81 | no further definitions: the calculation of C23 and C56 (PdfModel) | a map from the atoms of one listing to the sites of the other keeps distances, widths and weights, so the sums over pairs found are the same sum regrouped by sites; the phases are added in any order (RelProof, RelFinal); reordering, moving the origin, splitting and leaving out empty sites are such maps (RelList); with wrapping for the whole calculation (RelTheory) |
| C82 | no further definitions: the calculation of C23 and C56 (PdfModel) | an ordered pair of the larger cell is a pair of the smaller one together with the cell of its first atom (division with remainder of translations), so the pair sum is multiplied by the number of cells, as are the number of atoms and the volume; metric, reciprocal metric and tensors scale (SupProof); wrapping permutes the copies (SupFinal); the list written cell by cell is such a cell (SupAll) |
| C83 | no further definitions: the calculation of C23 and C56 (PdfModel) | the metric with permuted axes has permuted elements, so lengths, volume, reciprocal edges and square displacements (with the off-diagonal elements u12, u13, u23 renamed) agree; translations are permuted one to one, so the pair sums agree (AxProof); derivation for mixtures and whole calculations (AxFinal) |
| C84 | no further definitions: the calculation of C23 and C56 (PdfModel) | lengths and the square displacement are values of the metric and of the tensor (normalised by reciprocal edges) as forms, which do not change; the determinant of the matrix is 1 or -1; translations are mapped one to one by the integer inverse (BasProof); the new edges and angles exist because the metric is positive definite (BasMake); chains by induction (BasChain) |
| C85 | no further definitions: the calculation of C23 and C56 (PdfModel) | weights are factors over their mean, so a common factor cancels; the pair sum carries k squared, the number of atoms and the density k, so the PDF of the phase carries k and its product with the scale does not change (UniProof) |
| C86 | `LatticeParameters::reciprocal`, `ReflectionsInQminQmax`, `ReflectionsInDmaxDmin` (`ReflModel`) | the exchanged parameters are those made from the reciprocal edges and angles (ReflProof `recip_make`), so the enumeration of C32 applies; the spacing is a minimum found by completing the square in the metric |
| C87 | allocation of work arrays, nrutil.cc (`NrModel`: blocks, pointers as block and offset) | the place of an element is an injective function into the last block, kept by writes to elements (NrProof `array_of`); rows set by induction over the loop |
| C88 | memory of `matrix` objects, matrix.h (`MxMemModel`: buffers made and deleted, objects holding one buffer each) | refinement of a semantics with plain tables (MxMemSpec `tstep`) by induction over the program; invariant MxMemProof `Inv`: each object's buffer holds its table, no buffer has two owners or none |
| C89 | Phase and DataSet objects made and deleted (`OwnModel`: addresses and whether the object exists) | invariant over the calls: pointers in the lists distinct and live, number of live objects (OwnProof `good`) |
| C90 | objects and indices of PeriodicTable (`PtModel`: pairs of public and backup pointers, two maps) | invariant over the calls (PtProof `G`): pairs disjoint and live, no other live object, each index entry leads to a public object called so; the backup of an element never changes |
| C91 | printing of vectors and matrices, matrix.h (`MxPrintModel`: the sequence of writes to the stream given and to `*pout`) | loops with separators are joins, by induction over the loop (MxPrintProof `loop_join`) |
| C92 | Python lists to data, misc.cc `read_data_arrays`, `double_array_from_pylist` (`ListsModel`: sizes, conversions, the Python exception left set, work arrays) | case analysis on the arguments; conversion of a list of numbers by induction (ListsProof `from_nums`) |
| C93 | version of the program, pdffit.cc `PdfFit::version`, pdffit2module.cc `transfer_version` (`VersModel`: the static variable, histories of calls) | the state is the first definition, by induction over the history (VersProof `state_defined`, `one_value`) |

## Not modelled

The FFT algorithm (gsl; taken to compute the discrete Fourier sums), file I/O and the operating system, the Python C-API glue
other than the list-building loops and the try blocks (C63), printing formats other than
those named, memory leaks other than those of C87 to C89, threads.

## Findings

Each is a theorem ending in `_refuted` with a concrete witness.

* C02: parameter id 4294967295 is the same as ALL after conversion, so it can
  not be fixed on its own (`C02_fix_single_id_refuted`).
* C03/C05: constraining a variable again appends a second entry; when the newer
  formula is skipped because all its parameters are fixed the older one decides
  the value, and the derivative row of the older entry stays in the table
  (`C03_last_constraint_wins_refuted`, `C05_derivative_table_refuted`).
* C08: a digit directly behind a closing parenthesis is glued to the internal
  token; `(1)2` reads outside the number table, `(1)0` is accepted
  (`C08_formula_safe_refuted`, `C08_rejects_bad_refuted`).
* C11: a parameter fixed between two `refine_step` calls is still moved, because
  the work arrays were laid out for the old flags
  (`C11_fixed_between_steps_refuted`).
* C12: `fit_running` and the arrays of `mrqmin` are static.  Steps taken in turn
  on two objects make one report the chi-squared of the other
  (`C12_interleaved_steps_refuted`); a failed set-up on one object makes the next
  `refine()` of an already refined object jump to the final step with released
  arrays (`C12_failed_other_object_refuted`).
* C13: a final step that fails for dependent parameters is repeated by all later
  calls, whatever is changed (`C13_final_failure_refuted`); a model error in the
  middle leaves the trial parameters in place and each further call moves them on
  (`C13_failed_step_moves_parameters_refuted`).
* C15: the cumulative Rw after `refine()` can be that of a rejected trial
  (`C15_reported_rw_refuted`).
* C55: adding a parameter between two steps overruns the work arrays
  (`C55_added_between_steps_refuted`).
* C31: off-diagonal metric elements below 1.5e-8 in absolute value are set to
  zero.  For a cell with edges 10000 and angles 90, 90, 60 this hits the
  reciprocal tensor, whose product with the metric has 4/3 on the diagonal
  (`C31_inverse_refuted`); a zero edge passes the check
  (`C31_zero_edge_refuted`).
* C33: when a lattice point lies exactly at the inner radius and begins the
  excluded segment nothing is excluded on that line; for rmin any multiple of the
  edge c the origin itself is visited (`C33_origin_visited`,
  `C33_inner_radius_refuted`).
* C20, C25: `pdfrange(ALL, ...)` rejected because of a later data set has already
  changed the earlier ones (`C20_range_all_refuted`).
* C22: `selectAtomType`, `selectAtomIndex`, `selectAll` and `selectNone` use the
  selection entry of the phase without a test; after `pdesel` it is NULL
  (`C22_deselected_refuted`).
* C48: `reset()` deletes the phases and data sets but leaves the references to
  their variables; the next use reads freed memory
  (`C48_after_reset_refuted`).  A reference kept in Python points into a vector
  that is resized by the next `setphase`: it dangles when the new phase has more
  atoms (`C48_kept_reference_refuted`) and otherwise silently refers to the new
  phase (`C48_kept_reference_moves_refuted`).
* C23: the baseline share of a partial PDF weighs atoms by scattering power only,
  so leaving out an atom with occupancy 0 changes the PDF
  (`C23_empty_site_refuted`).
* C24: `alloc` accepts rmin = rmax, giving a step of zero; the calculation then
  converts a quotient that is not finite to int (`C24_alloc_refuted`).
* C42: the frequency step uses the padded length less one, so frequencies just
  below Qmax are removed (`C42_kept_below_qmax_refuted`).
* C56: coordinates are reduced with `fmod`, which keeps the sign; for atoms at 0.9
  and -0.9 the sphere of lattice translations is too small and pairs are lost,
  although the crystal is the same as with 0.9 and 0.1
  (`C56_translated_atom_refuted`).  A pair with negative square displacement,
  which the code means to neglect, makes every calculated point NaN
  (`C56_negative_displacement`).  A data set from r = 0 gives NaN there, with a
  Qmax everywhere (`C56_origin`).
* C26: `getR` falls back to the whole grid when the fit range has one point; the
  other lists then have one entry (`C26_single_point_refuted`,
  `C26_arrays_before_calculation`).
* C27: the spacing test has no sign: constant or decreasing r is accepted and
  gives a zero or negative step (`C27_constant_r_refuted`,
  `C27_decreasing_r_refuted`).  Arrays get weights 1/sqrt(dG), texts 1/dG^2
  (`C27_array_weights_refuted`).
* C28: a text such as "#" makes the reader loop forever (`C28_endless`,
  `C28_refuted`).
* C44: the derivatives with respect to displacements leave out the factors of the
  reciprocal axes, so they are wrong in oblique cells (`C44_oblique_refuted`); those
  with respect to the angles of the cell follow the distances and the density but
  not the displacement along the bond (`C44_angle_refuted`); the one with respect
  to the occupancy divides by the occupancy and is NaN for an empty site
  (`C44_empty_refuted`).
* C45: with several phases the qbroad derivative uses the factor of the last phase
  for all of them (`C45_refuted`).
* C34: bond_length_types uses a margin of one unit cell around the search sphere, so
  in a block of several cells bonds through the end of the block are missed
  (`C34_refuted`).
* C35: with right angles the differences of coordinates are only reduced by a
  remainder that keeps the sign, so atoms at 0.9 and 0.1 are 0.8 cells apart
  (`C35_refuted`); with other angles the length to beat is never lowered, the last
  candidate shorter than the first wins, and the result depends on the order of the
  atoms (`C35_order_refuted`); after setvar the distance is that of the old cell
  (`C35_stale_refuted`).
* C36: for the same reason the angle is not that of the nearest atoms
  (`C36_nearest_refuted`).
* C57: dtensor has the wrong sign for obtuse angles and then drops the term
  (`C57_obtuse_refuted`); the terms of the angle are added with the sign of the
  cosine, so that they cancel above 90 degrees (`C57_angle_refuted`); at 180 degrees
  the result is NaN (`C57_straight_refuted`).
* C47: six digits for the value and two for the deviation can print a value more
  coarsely than its deviation (`C47_refuted`).
* C29: a blank line repeats the previous keyword without values: an error after
  scale, sharp, shape, cell, dcell or ncell (`C29_refuted`), a switch to DISCUS
  format after "format pdffit" (`C29_blank_format`); a comment in between removes
  the error (`C29_comment_refuted`).
* C30: a positive particle diameter of at most 5e-7 is written as "shape sphere,
  0.000000" and lost (`C30_refuted`); deviations of scale, sharpening parameters and
  diameter are not written (`C30_deviations_refuted`).
* C58: a malformed atom ends the reading silently (`C58_refuted`).
* C58: products of the numbers in ncell beyond 32 bits are signed overflow
  (last case of `C58_reads`).
* C59: edges of zero length are accepted (`C59_refuted`), and so is a text cut off
  before ncell and atoms (`C59_empty_refuted`).
* C60: save_pdf and save_dif before a calculation read an empty array, unless
  getpdf_fit was called before (`C60_refuted`, `C60_after_getpdf_fit`); beyond r = 1000
  the six digits can make the saved grid uneven (`C60_far_refuted`).
* C61: a results text between the steps of a first refinement lists every pair of
  refined parameters with an infinite correlation (`C61_running_refuted`); after a
  parameter was added the array of deviations is read beyond its end
  (`C61_added_refuted`).
* C63: `calc` does not catch constraintError, structureError or runtime_error: a
  constraint on a parameter that was never set, angles without volume or a data set
  allocated with a letter other than X or N end the Python process
  (`C63_calc_refuted`, in general `C63_calc_ends`).  `phase_fractions` does the same
  for the letter (`C63_phase_fractions_refuted`), `refine` for a formula that cannot
  be read (`C63_refine_refuted`).  `refine_step` with a flat cell returns NULL
  without an exception (`C63_refine_step_refuted`), `constrain` with a formula for
  an unassigned variable returns None with the exception set
  (`C63_constrain_str_refuted`).
* C64: a text that names a function of the extension module is not refused by
  getvar, setvar, setpar and constrain: the function is called and its result used as a variable.
  `getvar("reset")` deletes all phases and data sets and then dereferences a null
  pointer (`C64_reset_refuted`).  "lat(1) " with a blank at the end is refused,
  " lat(1)" is not (`C64_blank_refuted`).
* C65: before a calculation getR truncates (rmax - rmin)/deltar and can lose the last
  point: alloc with r from 0 to 14 in 26 points gives 25 (`C65_getr_refuted`; the same
  happens for 1 to 20 in 1000 points).  For the same set the last grid value is above
  rmax, so that pdfrange from the first to the last value of getR is refused
  (`C65_last_point_refuted`).  alloc accepts rmin = rmax and tiny positive qmax, for which the
  calculation converts NaN or an oversized double to int (`C65_defined_refuted`).
  NaN in the list of r values passes the test of regular spacing (`C65_regular_refuted`).
* C66: the deviations of U12, U13, U23 are printed only if one of these factors is not
  zero (`C66_offdiag_refuted`).  A data set read with the letter 'x' is calculated with
  X-ray factors and printed as "Neutrons" (`C66_radiation_refuted`).  get_scat_string
  puts no line break after an entry, so all elements run together in one line
  (`C66_scat_line_refuted`).
* C67: `restore_stdout` of output.py declares the module variable global and does not
  set it: what blen, bang and intro print goes on to the old file
  (`C67_restore_refuted`).  refine_step gives up the interpreter lock while its output
  is held in a buffer of its own.  A second refine_step in another thread, or a first
  redirect, makes the engine call Python without the lock (`C67_two_steps`,
  `C67_start_refuted`); a restore in between drops the text held (`C67_lost_refuted`).
* C68: alloc adds nothing to data_files, so its entries no longer match the numbers of
  the data sets (`C68_entry_each_refuted`).  read_data_string puts the whole data text
  in data_files in place of the name (pdffit.py:242), and PdfFit::read_data_string does
  not hand the name on, so the engine calls every such set "string"
  (`C68_name_kept_refuted`).  The state of the stream is not looked at after writing: on
  a full disk saving succeeds with a file cut off (`C68_stored_refuted`).
* C69: an element number that does not exist is not refused by blen: pdffit.py:884-889
  index the list of types with k - 1, so 0 and negative numbers count from the end, and
  the handler of IndexError returns without a word (`C69_index_refuted`).
* C70: the deviations of the reciprocal angles add terms without absolute values
  (metric.cc:101-112), so they are too small or negative: angles 90, 90, 120 with a
  deviation of beta (`C70_angles_refuted`).
* C70: the deviation of an off-diagonal element of the reciprocal metric is replaced by
  zero when the sum is negative, although the element changes (`C70_rtensor_refuted`;
  the same function as in C57).
* C70: the deviation of the number density leaves out the number of cells of the block
  (metric.cc:176-177), for 2x1x1 cells it is twice the propagated one
  (`C70_density_refuted`).
* C79: after a call of refine_step whose trial was rejected, `fit.p` is put back but
  variables and PDFs stay those of the rejected trial (pdflsmin.cc:148-171), so getpar
  and getvar disagree until the next calculation (`C79_refuted`).
* C80: weights are divided by the average factor of the phase (pdf.cc:795-813) with no check for
  zero; with standard neutron lengths of 0 (polonium and others) the PDF is not finite
  and no error is raised (`C80_neutron_refuted`).
* C81: the share of ignored pairs (pdf.cc:212-228) sums scattering weights without occupancies,
  so with some atoms ignored the PDF changes when a counted site is listed as two atoms
  sharing its occupancy (`C81_split_ignored_refuted`).
* C86: asked for reflections with spacings up to that of (0 0 j), `ReflectionsInDmaxDmin` also gives
  (0 0 l) with larger spacings and (0 0 0) (`C86_limit_line`, `C86_dmax_refuted`).
* C87: `dvector(1, n)` and `ivector(1, n)` compute `v-nl+1` from the left, so the pointer one before the
  array is formed, undefined by the C++ standard though harmless on common machines
  (`C87_vector_pointer`, `C87_vector_standard_refuted`).
* C89: `alloc` makes its data set before testing its arguments and does not delete it when it
  throws, so each refused call leaks one (`C89_end_refuted`).
* C90: `PeriodicTable::reset(atp)` looks for the pointer among the backup copies, so it throws for every
  element (and would use an iterator never set) (`C90_reset_throws`, `C90_reset_refuted`); after
  `deleteAtomType` of deuterium the symbol 2-H leads to the deleted object (`C90_delete_refuted`), as does
  the former symbol of an element renamed before (`C90_rename_refuted`).  These member functions are
  public but not called from Python.
* C91: `operator<<` for a matrix writes the elements to `*pout` whatever stream it is given
  (`C91_matrix_stream`, `C91_matrix_refuted`); an empty vector is printed without the closing parenthesis
  (`C91_vector_refuted`).
* C92: `read_data_arrays` called with no list at all (three tuples, say) kills the process, as all sizes are -1
  (`C92_no_lists_refuted`); a value that is no number is stored as -1 and a SystemError follows
  (`C92_not_number_refuted`); empty lists are read behind their end (`C92_empty`); refused data leave the work
  arrays behind (`C92_leak_refuted`).
* C93: loading the module with no `__version__` to be found returns the module with a Python exception set
  (`C93_load_refuted`); loading it again with another version throws out of the function (`C93_load_again`).
