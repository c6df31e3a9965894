{"claims": [
 {"property": "C01", "status": "proved", "theorems": ["C01_getpar_last_set"], "note": ""},
 {"property": "C02", "status": "proved", "theorems": ["C02_flag_last_fix_free", "C02_fix_free_outcome", "C02_table_wellformed", "C02_fix_single_id_refuted"], "note": "Refuted part: id 4294967295 cannot be fixed on its own."},
 {"property": "C03", "status": "proved", "theorems": ["C03_last_constraint_wins", "C03_clean_without_fix", "C03_last_constraint_wins_refuted"], "note": "Holds with the proviso on fixed parameters; without it the claim is refuted by a concrete call history."},
 {"property": "C04", "status": "proved", "theorems": ["C04_values", "C04_undefined_parameter", "C04_unconstrained_untouched"], "note": ""},
 {"property": "C05", "status": "proved", "theorems": ["C05_derivative_table", "C05_derivative_table_refuted"], "note": "Proved for histories that constrain each variable once; replacing a constraint leaves a stale derivative (refuted)."},
 {"property": "C06", "status": "proved", "theorems": ["C06_formula_value", "C06_formula_value_real", "C06_blanks", "C06_undefined_parameter"], "note": ""},
 {"property": "C07", "status": "proved", "theorems": ["C07_formula_gradient"], "note": ""},
 {"property": "C08", "status": "proved", "theorems": ["C08_formula_safe", "C08_formula_safe_refuted", "C08_rejects_bad_refuted"], "note": "Safe for every text without a digit directly behind ')'; with one, an invalid read is exhibited."},
 {"property": "C09", "status": "proved", "theorems": ["C09_refinement_ends", "C09_at_most_101_calls"], "note": "The step functions are arbitrary, so rounding and NaN are covered."},
 {"property": "C10", "status": "proved", "theorems": ["C10_each_step_improves", "C10_refinement_improves"], "note": "Over the reals."},
 {"property": "C11", "status": "proved", "theorems": ["C11_fixed_not_moved", "C11_fixed_between_steps_refuted"], "note": "Holds for complete refinements; refuted for flags changed between refine_step calls."},
 {"property": "C12", "status": "proved", "theorems": ["C12_complete_refinements_isolated", "C12_interleaved_steps_refuted", "C12_failed_other_object_refuted"], "note": "Holds for complete successful refinements; refuted for interleaved steps and after a failure of another object."},
 {"property": "C13", "status": "proved", "theorems": ["C13_first_failure_harmless", "C13_fresh_start", "C13_final_failure_refuted", "C13_failed_step_moves_parameters_refuted"], "note": "Holds for failures in set-up or first iteration; refuted for later ones."},
 {"property": "C14", "status": "proved", "theorems": ["C14_fitted_points", "C14_cumulative", "C14_evaluation", "C14_crw", "C14_rw_adds_up"], "note": ""},
 {"property": "C15", "status": "proved", "theorems": ["C15_cumulative_of_last_trial", "C15_reported_rw_refuted"], "note": "The stated claim is refuted; what is recorded is characterised."},
 {"property": "C16", "status": "proved", "theorems": ["C16_inverse_and_solution", "C16_solution_unique"], "note": "Over the reals; rounding is not modelled."},
 {"property": "C17", "status": "proved", "theorems": ["C17_covariance_expanded"], "note": ""},
 {"property": "C18", "status": "proved", "theorems": ["C18_ascending_ids"], "note": ""},
 {"property": "C19", "status": "proved", "theorems": ["C19_consistent", "C19_new_phase_selected", "C19_new_data_selects_all", "C19_alloc_selects_all", "C19_selection_effect", "C19_current_effect", "C19_getphase"], "note": "Readers are represented by their result."},
 {"property": "C20", "status": "proved", "theorems": ["C20_rejected_unchanged", "C20_alloc_rejects", "C20_range_all_refuted"], "note": "Refuted for pdfrange of all data sets, which is excluded from the positive theorem."},
 {"property": "C21", "status": "proved", "theorems": ["C21_last_call_decides", "C21_one_call"], "note": ""},
 {"property": "C22", "status": "proved", "theorems": ["C22_only_deselected", "C22_no_pdesel_safe", "C22_deselected_refuted"], "note": "The unconditional claim is refuted; the theorems give exactly when it fails."},
 {"property": "C23", "status": "proved", "theorems": ["C23_half_loop", "C23_rule", "C23_share", "C23_empty_site_refuted"], "note": "The last sentence is the refuted expectation that an empty site may be left out."},
 {"property": "C24", "status": "proved", "theorems": ["C24_ranges", "C24_all_sets", "C24_zero_step", "C24_alloc_refuted"], "note": "Refuted for the zero step that alloc accepts."},
 {"property": "C25", "status": "proved", "theorems": ["C25_range", "C20_range_all_refuted"], "note": ""},
 {"property": "C26", "status": "proved", "theorems": ["C26_agree", "C26_after_reading", "C26_after_calculation", "C26_single_point_refuted", "C26_arrays_before_calculation"], "note": "Doubles are reals; in floating point (int)((rmax-rmin)/deltar) in getR may be one less."},
 {"property": "C27", "status": "proved", "theorems": ["C27_table", "C27_any_text", "C27_arrays", "C27_array_weights_refuted", "C27_constant_r_refuted", "C27_decreasing_r_refuted"], "note": "Numbers are decimal numerals with real values; overflow of a printed number is left out."},
 {"property": "C28", "status": "proved", "theorems": ["C28_lines", "C28_ends", "C28_endless", "C28_refuted"], "note": "Exact condition for the reader to end."},
 {"property": "C29", "status": "proved", "theorems": ["C29_blank_harmless", "C29_blank_error", "C29_blank_format", "C29_comment_harmless", "C29_refuted", "C29_comment_refuted"], "note": "Every structure text and every place in the header. The plain claim that blank lines are harmless is refuted; where they are and what they do otherwise is proved."},
 {"property": "C30", "status": "proved", "theorems": ["C30_reads_back", "C30_exact", "C30_of_read", "C30_refuted", "C30_deviations_refuted"], "note": "Every phase with finite numbers; numbers to the printed decimals, ties to even. Reading back needs the rounded angles to make a cell still. Refuted for a diameter of at most 5e-7 and for the deviations outside cell and atoms."},
 {"property": "C31", "status": "proved", "theorems": ["C31_accepted_cells", "C31_angles_close", "C31_metric_near", "C31_metric", "C31_inverse", "C31_inverse_refuted", "C31_zero_edge_refuted"], "note": "Over the reals. The unconditional inverse claim is refuted: off-diagonal elements below 1.5e-8 are replaced by zero."},
 {"property": "C32", "status": "proved", "theorems": ["C32_complete_enumeration", "C32_reported_distance"], "note": "Over the reals; int conversion does not overflow in the model."},
 {"property": "C33", "status": "proved", "theorems": ["C33_inner_radius", "C33_origin_visited", "C33_inner_radius_refuted"], "note": "Holds when no lattice point is exactly at rmin; refuted otherwise."},
 {"property": "C34", "status": "proved", "theorems": ["C34_bonds", "C34_unknown", "C34_refuted"], "note": "Tensors of the current cell, as after reading a structure or a calculation. Complete for pairs whose coordinates differ by at most one cell; refuted for a block of several cells."},
 {"property": "C35", "status": "proved", "theorems": ["C35_image", "C35_edge", "C35_symmetric", "C35_errors", "C35_refuted", "C35_order_refuted", "C35_stale_refuted"], "note": "That the distance is the shortest is refuted; C35_image says exactly when it is in cells with right angles."},
 {"property": "C36", "status": "proved", "theorems": ["C36_angle", "C36_symmetric", "C36_errors", "C36_coincident", "C36_nearest_refuted"], "note": "The images are those of bond_length_atoms; that they are the nearest ones is refuted."},
 {"property": "C37", "status": "proved", "theorems": ["C37_builtin_derivatives", "C37_builtin_names"], "note": ""},
 {"property": "C38", "status": "proved", "theorems": ["C38_envelope_shape", "C38_envelope_derivative"], "note": ""},
 {"property": "C39", "status": "proved", "theorems": ["C39_fractions", "C39_values", "C39_no_total"], "note": "Over the reals; a zero average scattering factor (division by zero) is excluded by hypothesis."},
 {"property": "C40", "status": "proved", "theorems": ["C40_history", "C40_unique", "C40_phases", "C40_refused"], "note": "Radiation given as one character."},
 {"property": "C41", "status": "proved", "theorems": ["C41_lookup", "C41_case", "C41_unique", "C41_stored"], "note": "Letters of the C locale."},
 {"property": "C42", "status": "proved", "theorems": ["C42_filter", "C42_determined", "C42_symmetric", "C42_removed", "C42_linear", "C42_identity", "C42_kept_below_qmax_refuted"], "note": "Reals; gsl's transforms are taken to compute the discrete Fourier sums. Keeping all frequencies below Qmax is refuted."},
 {"property": "C43", "status": "proved", "theorems": ["C43_linear", "C43_selected_only", "C43_stepcut"], "note": ""},
 {"property": "C44", "status": "proved", "theorems": ["C44_derivatives", "C44_outputs", "C44_oblique_refuted", "C44_angle_refuted", "C44_empty_refuted"], "note": "Derivative with the peak limits held fixed for all claimed variables (positions, displacements and edges for right angles; occupancies of occupied sites; scale, damping, diameter, peak-width factors), with and without a Qmax; for scale factors, damping, diameter and occupancies also of the calculated values themselves. Cell angles, oblique cells and empty sites are refuted."},
 {"property": "C45", "status": "proved", "theorems": ["C45_column", "C45_refuted"], "note": "The column is characterised for any number of phases; it is the derivative when the factors agree (C44_derivatives) and refuted with two phases of different scale."},
 {"property": "C46", "status": "proved", "theorems": ["C46_resize", "C46_transposed", "C46_set", "C46_rows_and_columns", "C46_product", "C46_transposed_twice", "C46_transposed_product", "C46_sd"], "note": ""},
 {"property": "C47", "status": "proved", "theorems": ["C47_field", "C47_reads_back", "C47_columns", "C47_refuted"], "note": "Printing with a precision (printf %g rules, ties to even) and FormatValueWithStd, for all values, deviations, widths and settings; reading back through the modelled istream >> double. C47_refuted: the value can be printed more coarsely than its deviation."},
 {"property": "C48", "status": "proved", "theorems": ["C48_indexed", "C48_phase_variable", "C48_data_variable", "C48_new_data", "C48_unassigned", "C48_after_reset_refuted", "C48_kept_reference_refuted", "C48_kept_reference_moves_refuted"], "note": "Refuted after reset and for references kept while another structure is read."},
 {"property": "C49", "status": "proved", "theorems": ["C49_wrapped"], "note": ""},
 {"property": "C50", "status": "proved", "theorems": ["C50_table", "C50_slots", "C50_counters", "C50_errors"], "note": "Constraint search passed in as a function (C50_table) and as vfind over the constraint table (C50_errors)."},
 {"property": "C51", "status": "proved", "theorems": ["C51_error_propagation", "C51_size_mismatch", "C51_fill_errors"], "note": ""},
 {"property": "C52", "status": "proved", "theorems": ["C52_covariance_of_final_parameters", "C52_covariance_unique"], "note": "Over the reals."},
 {"property": "C53", "status": "proved", "theorems": ["C53_refinement_succeeds", "C53_step_singular"], "note": "Over the reals."},
 {"property": "C54", "status": "proved", "theorems": ["C54_trial", "C54_downhill"], "note": ""},
 {"property": "C55", "status": "proved", "theorems": ["C55_no_overrun", "C55_added_between_steps_refuted"], "note": ""},
 {"property": "C56", "status": "proved", "theorems": ["C56_pdf", "C56_translated_atom_refuted", "C56_negative_displacement", "C56_origin"], "note": "Reals with NaN/infinity as a separate value. Completeness of the pair list needs coordinates that differ by at most 1; without this the claim is refuted."},
 {"property": "C57", "status": "proved", "theorems": ["C57_length", "C57_bonds", "C57_angle", "C57_obtuse_refuted", "C57_angle_refuted", "C57_straight_refuted"], "note": "First order bound for cells without obtuse angles and bond angles up to 90 degrees; refuted outside."},
 {"property": "C58", "status": "proved", "theorems": ["C58_reads", "C58_reads_end", "C58_unknown", "C58_refuted"], "note": "Texts whose lines say something (says) and whose atoms are listed (lists_atoms), in both formats; a malformed atom ends the list silently (C58_refuted)."},
 {"property": "C59", "status": "proved", "theorems": ["C59_accepted", "C59_refuted", "C59_empty_refuted"], "note": "Every text whatever; edges of zero and texts cut before the atoms are accepted."},
 {"property": "C60", "status": "proved", "theorems": ["C60_pdf", "C60_dif", "C60_pdf_reads_back", "C60_dif_reads_back", "C60_no_set", "C60_after_calculation", "C60_uncalculated", "C60_refuted", "C60_after_getpdf_fit", "C60_far_refuted", "C60_pdf_any", "C60_dif_any"], "note": "Finite values and positive weights for the numbers read back, any values for the lines; the plain claim for any state and grid is refuted (nothing calculated, r beyond 1000)."},
 {"property": "C61", "status": "proved", "theorems": ["C61_counts", "C61_parameters", "C61_correlations", "C61_at_most_one", "C61_refused", "C61_running", "C61_running_refuted", "C61_added", "C61_added_refuted"], "note": "Content of the text, not its layout.  The plain claim for any state is refuted: between the steps of a first refinement and after a parameter was added."},
 {"property": "C62", "status": "proved", "theorems": ["C62_named", "C62_determines", "C62_bad_side", "C62_deselected"], "note": "Atoms with symbols of the element table, any sets of ignored atoms."},
 {"property": "C63", "status": "proved", "theorems": ["C63_session_calls", "C63_read_struct", "C63_read_data", "C63_read_data_lists", "C63_parameters", "C63_constrain", "C63_constrain_str_refuted", "C63_texts", "C63_distances", "C63_scattering", "C63_lists", "C63_phase_fractions", "C63_phase_fractions_refuted", "C63_calc", "C63_calc_exceptions", "C63_calc_ends", "C63_calc_refuted", "C63_refine_step", "C63_refine_step_refuted", "C63_refine", "C63_refine_refuted"], "note": "The catch clauses around the engine calls modelled elsewhere; argument conversion left out.  Without the provisos the claim is refuted for calc, refine_step, refine, phase_fractions and constrain with a formula."},
 {"property": "C64", "status": "proved", "theorems": ["C64_variable", "C64_index", "C64_unassigned", "C64_only", "C64_no_change", "C64_attribute_error", "C64_arity", "C64_builders", "C64_setpar_number", "C64_setpar_not_finite", "C64_setpar_variable", "C64_all", "C64_constrain", "C64_constrain_refused", "C64_constrain_unassigned", "C64_functions", "C64_reset_refuted", "C64_blank_refuted"], "note": "ASCII texts, arguments that are texts, numbers or methods of the object.  Refuted: that a text naming a function of the module is rejected, and that blanks around a reference do not matter."},
 {"property": "C65", "status": "proved", "theorems": ["C65_fit_range", "C65_grid", "C65_grid_order", "C65_range_on_grid", "C65_calc", "C65_defined", "C65_getr", "C65_getr_fresh", "C65_read", "C65_getr_refuted", "C65_last_point_refuted", "C65_defined_refuted", "C65_regular_refuted"], "note": "Binary64 of Flocq, rounding to nearest; limits of magnitude at most 2^900, at least 2^-900 apart.  Refuted: that getR of a fresh set has all points, that the whole grid is a valid fit range, that the calculation is defined for every accepted alloc, and that NaN in r is rejected."},
 {"property": "C66", "status": "proved", "theorems": ["C66_sections", "C66_phase", "C66_refused", "C66_offdiag_refuted", "C66_radiation_refuted", "C66_scat", "C66_scat_refused", "C66_scat_line", "C66_scat_line_refuted"], "note": "Characters of the sections on phases and data sets; infinities left out, the text of Fit::output after its heading is any text here, see C71.  Refuted: that deviations of zero off-diagonal displacement factors are shown, that the radiation named is the one used, and that scattering factors are on lines of their own."},
 {"property": "C67", "status": "proved", "theorems": ["C67_engine", "C67_together", "C67_python", "C67_restore_refuted", "C67_references", "C67_one_step", "C67_unredirected", "C67_two_steps", "C67_two_steps_refuted", "C67_start_refuted", "C67_lost_refuted"], "note": "Events are atomic; writing to the Python file succeeds.  Refuted: that restore_stdout brings back the text of the class, and, with threads, that two refine_steps at a time, a first redirect during a step or a restore during a step are harmless."},
 {"property": "C68", "status": "proved", "theorems": ["C68_lists", "C68_failed", "C68_struct_loaded", "C68_data_loaded", "C68_lists_loaded", "C68_struct_file", "C68_data_file", "C68_no_file", "C68_saved", "C68_texts", "C68_entry_each_refuted", "C68_name_kept_refuted", "C68_stored_refuted"], "note": "the file system is a function from names to contents with a room for each file; what a structure or data text gives is that of C27 and C29"},
 {"property": "C69", "status": "proved", "theorems": ["C69_atoms", "C69_types", "C69_angle", "C69_silent", "C69_unassigned", "C69_no_atom", "C69_no_kind", "C69_no_angle", "C69_count", "C69_not_int", "C69_not_word", "C69_index", "C69_index_refuted"], "note": "symbols are those of the table of elements; numbers are reals or NaN.  Refuted: that an element number no element has is refused."},
 {"property": "C70", "status": "proved", "theorems": ["C70_same", "C70_volume", "C70_rvolume", "C70_edges", "C70_angles", "C70_attained", "C70_angles_refuted", "C70_rtensor_refuted", "C70_density", "C70_density_refuted", "C70_text"], "note": "doubles are reals.  The deviations of the reciprocal angles are bounds if the reciprocal angles that matter are not acute; refuted: in general, for the off-diagonal elements of the reciprocal metric, and for the density of blocks of several cells."},
 {"property": "C71", "status": "proved", "theorems": ["C71_counts", "C71_parameters", "C71_correlations", "C71_whole", "C71_log"], "note": "doubles are reals, infinities or NaN; a NaN is printed without sign.  The covariances and deviations behind the printed correlations are finite in C71_correlations; the infinite ones are C61_running."},
 {"property": "C72", "status": "proved", "theorems": ["C72_course", "C72_search", "C72_closing"], "note": "doubles are reals.  The number of data points and the weighted norm of the data are constants of the session; printing after the closing rule is not modelled."},
 {"property": "C73", "status": "proved", "theorems": ["C73_least_squares", "C73_single", "C73_recovers"], "note": "exact arithmetic: doubles are reals, so the bounds are those of the algorithm and not of its rounding.  Analytic derivatives, as refine always asks for."},
 {"property": "C74", "status": "proved", "theorems": ["C74_history_free"], "note": "doubles are reals (the remainder fmod is exact).  Variables are cells of a memory addressed through a map under which existing variables are apart; ntot and wnorm, which are reset in each call, are not part of the result."},
 {"property": "C75", "status": "proved", "theorems": ["C75_sum", "C75_linear", "C75_refined"], "note": "exact arithmetic: doubles are reals.  Constraints of other variables than phase scale factors are excluded; sane phases (positive cell, occupancies, scattering and displacements) and non-negative weights as in C56 and C73."},
 {"property": "C76", "status": "proved", "theorems": ["C76_same", "C76_final", "C76_scales"], "note": "doubles are reals; variables are cells of a memory addressed through a map under which existing variables are apart.  When a calculation throws, the model keeps the PDFs of before, the program those of the data sets already done.  fit_errors, which follows, is in C51."},
 {"property": "C77", "status": "proved", "theorems": ["C77_output", "C77_frozen"], "note": "exact arithmetic: doubles are reals.  The parameter is used in one constraint (of one variable); other constraints may use other parameters freely.  Variables whose columns C44 refutes (displacements and positions in oblique cells, cell angles, empty sites) are excluded by the hypothesis regular."},
 {"property": "C78", "status": "proved", "theorems": ["C78_output", "C78_frozen"], "note": "exact arithmetic: doubles are reals.  As C77 without its limit to one constraint; variables whose columns C44 refutes are excluded by the hypothesis regular."},
 {"property": "C79", "status": "proved", "theorems": ["C79_between", "C79_refuted"], "note": "exact arithmetic: doubles are reals.  C79_between says what parameters, variables and PDFs are after every call; that they belong together is refuted by C79_refuted (a rejected trial stays in the variables until the next calculation)."},
 {"property": "C80", "status": "proved", "theorems": ["C80_histories", "C80_factors", "C80_reported", "C80_same_type", "C80_unrelated", "C80_unrelated_pdf", "C80_common_factor", "C80_xray_table", "C80_xray", "C80_null_average", "C80_neutron_refuted"], "note": "exact arithmetic: doubles are reals.  Factors set to values that are not finite are not modelled.  C80_neutron_refuted: with the standard neutron lengths a PDF can be not finite without an error."},
 {"property": "C81", "status": "proved", "theorems": ["C81_relisted", "C81_atom_order", "C81_origin", "C81_split_site", "C81_empty_site", "C81_phase_order", "C81_theory", "C81_theory_order", "C81_split_ignored_refuted"], "note": "exact arithmetic: doubles are reals; with rounding a sum taken in another order may differ in the last bits.  All but the order of phases need the atoms of a phase within one cell and no stepcut (elsewhere C33 and C56 refute that all pairs are found).  C81_split_ignored_refuted: splitting an atom while another one is ignored."},
 {"property": "C82", "status": "proved", "theorems": ["C82_supercell", "C82_enlarged", "C82_sane", "C82_theory", "C82_enlarged_theory"], "note": "exact arithmetic: doubles are reals; with rounding the sums may differ in the last bits.  Structures with one cell per edge (icc = 1), atoms within one cell, no stepcut; blocks of cells given by ncell are not compared (C33 and C56 refute that all their pairs are found)."},
 {"property": "C83", "status": "proved", "theorems": ["C83_axes", "C83_rename", "C83_sane", "C83_theory", "C83_rename_theory"], "note": "exact arithmetic: doubles are reals; with rounding the sums may differ in the last bits.  Atoms within one cell, no stepcut; the whole calculation for one cell per edge and coordinates that are not negative."},
 {"property": "C84", "status": "proved", "theorems": ["C84_basis", "C84_exists", "C84_rebase", "C84_image", "C84_theory", "C84_chain"], "note": "exact arithmetic: doubles are reals; with rounding the sums may differ in the last bits.  Structures with one cell per edge (icc = 1), atoms within one cell, no stepcut; the new cell must be accepted by lattice() and have no off-diagonal metric element below double_eps other than 0."},
 {"property": "C85", "status": "proved", "theorems": ["C85_units", "C85_mixture", "C85_theory"], "note": "exact arithmetic: doubles are reals.  Atoms within one cell, no stepcut; the whole calculation for one cell per edge and coordinates that are not negative."},
 {"property": "C86", "status": "proved", "theorems": ["C86_reciprocal", "C86_spacing", "C86_reflections", "C86_scattering", "C86_spacings", "C86_limit_line", "C86_dmax_refuted"], "note": "exact arithmetic: doubles are reals, so whether a reflection lies exactly on a limit is decided without rounding; conversions to int do not overflow.  ReflectionsInDmaxDmin inherits privately in the C++ class, so its members are modelled but not reachable for users."},
 {"property": "C87", "status": "proved", "theorems": ["C87_matrix", "C87_matrix_standard", "C87_vector", "C87_empty", "C87_vector_pointer", "C87_vector_standard_refuted"], "note": "malloc does not fail; sizes in elements, products of sizes do not overflow.  C87_matrix and C87_vector take pointers as plain addresses; C87_matrix_standard also holds each pointer formed to the array, as the C++ standard does."},
 {"property": "C88", "status": "proved", "theorems": ["C88_values", "C88_owner", "C88_released"], "note": "new does not throw and sizes do not overflow size_t; element copies of T neither fail nor allocate, as for the double and int used in the code.  The elements moved by resize are those of mx_resize (C46), here with its buffers."},
 {"property": "C89", "status": "proved", "theorems": ["C89_objects", "C89_end", "C89_end_refuted"], "note": "doubles are reals; new does not throw; all exceptions of the readers are of class Exception (exceptions.h), as in the model of their text."},
 {"property": "C90", "status": "proved", "theorems": ["C90_start", "C90_start_values", "C90_define", "C90_delete", "C90_kept", "C90_lookup", "C90_reset_all", "C90_reset_all_init", "C90_clear", "C90_reset_throws", "C90_reset_refuted", "C90_delete_refuted", "C90_rename_refuted"], "note": "pt_public and pt_backup are kept as one list of pairs; the lookup with standard case is in ScatModel, here the two indices behind it.  The refuted claims are about public member functions that the Python module does not call."},
 {"property": "C91", "status": "proved", "theorems": ["C91_vector", "C91_vector_refuted", "C91_matrix", "C91_matrix_stream", "C91_matrix_refuted", "C91_print"], "note": "the text of one element is any function of the element; flags set on the stream are not modelled."},
 {"property": "C92", "status": "proved", "theorems": ["C92_numbers", "C92_lengths", "C92_one_list", "C92_no_lists", "C92_no_lists_refuted", "C92_not_number", "C92_not_number_refuted", "C92_values", "C92_empty", "C92_leak", "C92_leak_refuted"], "note": "whether PdfFit::read_data_arrays stores the numbers is a parameter (DataModel has it); the name is taken as given, lengths fit in an int."},
 {"property": "C93", "status": "proved", "theorems": ["C93_before", "C93_after", "C93_one_value", "C93_load", "C93_load_again", "C93_load_none", "C93_load_refuted"], "note": "texts without NUL characters; what Python finds for __version__ is a parameter; references counted by Python are not modelled."}
]}
