# Formal model of ahkab in Rocq (Coq 8.16.1)

The Python sources of ahkab (in `/repo`) are read as text and transcribed,
function by function, to small Gallina functions.  The theorems are about the
model; the tie to the code is the reading, so every definition cites the file
and lines it models.

## Trusted base

* the Coq 8.16.1 kernel (and its standard library);
* the axioms printed by `Print Assumptions` beneath each property theorem
  (`theories/Props*.v`).  Only standard-library axioms may appear:
  the ones of the classical real numbers
  (`ClassicalDedekindReals.sig_forall_dec`, `ClassicalDedekindReals.sig_not_dec`,
  `FunctionalExtensionality.functional_extensionality_dep`, and, where
  analysis lemmas are used, `Classical_Prop.classic`).
  The discrete models (node table, parser, iterators over lists, solver
  schedule, buffers, queue, dictionary) are axiom free.
* the reading of the Python code (citations in the comments).

## General modelling decisions

* Python floats are modelled by exact numbers (`R`, or `Q`/`Z` where an
  executable model helps).  Rounding, overflow, NaN and infinities are NOT
  modelled unless a comment says so.
* Exceptions are values (`Ok`/`Err`); the error names follow the Python
  exception class.
* Dictionaries are association lists in insertion order (CPython >= 3.7).
* numpy matrices are functions `nat -> nat -> R` with explicit dimensions.
* External calls (linear solver, Newton solver of scipy, eigenvalues, the file
  system, clock, printing) are section variables, universally quantified in the
  closed theorem.  What is assumed about each of them is a visible hypothesis.
* Objects mutated in place become functions that return the new state.

## Not modelled

printing and plotting, logging, `optparse` (its results are modelled), the
`sympy` solver, FFT numerics, scipy's interpolation and Newton, file system
errors, Python 2 compatibility code, `testing.py`.

## Plan per property

See `properties.jsonl` for the full text.  How each is modelled and proved:

| id | model file | method |
|----|-----------|--------|
| C01 | Nodes | invariant by induction over the operation list |
| C02 | Nodes | refuted by witness + guarded positive theorem |
| C111, C112 | Nodes, Circuit, PropsEdit | case analysis of each call; invariant over histories |
| C03-C05 | Mna | induction over the element list; row functional equals the spec sum |
| C06 | Mna | refuted by witness (sign), exact law proved |
| C07 | Mna | induction over the element list, AC = D |
| C08, C09 | DcSolve | state machine with oracle; measure on the schedule; C09 refuted |
| C10, C70 | Newton | induction over the port list |
| C11 | Newton | equivalence of the boolean with the componentwise spec |
| C12, C69, C72 | Newton | induction on the iteration count with oracle solver |
| C13, C14, C71 | Sweep | induction over the sweep list; C14, C71 refuted |
| C15, C16 | Sweep | induction on the index; real arithmetic |
| C17-C19, C73, C74 | Df, Lagrange | Lagrange interpolation for general order |
| C20 | Tran | invariant over operation list |
| C21, C22, C75-C78, C132 | Tran | invariants over schedules, measure; C21, C22, C76, C132 refuted |
| C23 | Combos | refinement of the stateful iterator to the functional enumeration |
| C24, C79 | Memo | invariant over call histories; C79 refuted |
| C26, C27 | Str, Units, Lines | string functions, induction on strings |
| C28, C29 | Subckt | injectivity of renaming under a guard; refuted in general |
| C30, C126-C131 | Netlist, NetlistFacts, PropsNetlist | the lines as lists of words; %g as a function on decimals, correct to half a unit of the sixth digit; independent relation from lines to elements |
| C31-C33, C80, C82 | TimeFun, PropsTime | real arithmetic |
| C34, C35 | Ics | index arithmetic |
| C36-C41, C83-C85 | Csv, PropsCsv, Results, PropsResults | lists, strings, reals |
| C42, C107, C108 | Guess, PropsGuess | lists, index arithmetic; the linear solver is an oracle |
| C113-C116 | Lines, Reader, PropsReader | files as lists of lines, the file system as a function; independent relation from physical to logical lines |
| C109, C117 | Directive, PropsAnalyses | keys of the parsed description against the signatures |
| C43, C44, C110 | RunQueue, PropsRunQueue | queue, stored starting points and call log as a state; the analyses are oracles |
| C45, C81, C101-C103 | Directive, PropsDirective | list of tokens |
| C46-C48, C118 | Pss, PropsPss | oracles for the linear solvers; homogeneous and particular solutions along the chain; block sums |
| C25, C49, C50, C88, C89, C93 | Diode, PropsDiode | real analysis; cache state machine |
| C51, C52, C90, C96, C97 | Mosq, Deriv, PropsMosq | real analysis; stamps |
| C53, C86, C87 | Switch, PropsSwitch | state machine with tanh as a parameter |
| C54, C98 | Tunnel, PropsTunnel | real analysis |
| C55, C91, C92, C99 | Ekv, PropsEkv | real analysis, Newton as an oracle |
| C94, C95 | Stamp, PropsStamp | sums over index lists |
| C56, C57, C100, C104-C106 | Fourier, PropsFourier | integer log2, sampling grid |
| C58, C59 | Nodes/Circuit | lists |
| C60 | Ground, PropsGround | entries read off the KCL theorem; graph witness |
| C61, C67, C68 | Newton | sums over ports |
| C62, C119-C122 | Pz, PropsPz | rank-one updates of a matrix and their eigenvectors; oracles for inv, det and eigvals with their specification |
| C63, C124, C125 | Symb, SymbFacts, PropsSymb | the symbolic matrix is the numeric one plus s times the dynamic one, pass by pass |
| C167-C172 | SymbSol, PropsSymbSol | the driver of the symbolic analysis with sympy.solve and diff as oracles: a system equivalent to the equations gives the solution of the circuit; the matrix does not depend on a source and the vector is affine in it; contributions of transistors and diodes pass by pass |
| C173-C177 | Session, PropsSession | what the command line does to the settings with float, int and the file system as oracles, one option at a time; the choice of the formula by name |
| C178-C191 | Session, PropsSetup | the words of the manual against the tables, with C45; the grid and the exact acceptance condition of a DC sweep; invariants of the node table for check_circuit; quadratic forms for coupled inductors |
| C192 | Simulate, PropsSimulate | the reader, the parsers, the node table, the MNA system (C01), the Newton loop of a linear circuit (C66-C68) and the result look-up (C41) put together; laws written with the names and values of the lines |
| C193 | SimulateAc, PropsSimulateAc | the AC values of the source lines, the sweep and the complex systems (C133), the CSV table and the look-up (C36, C85) put together; phasor laws written with the names and values of the lines |
| C194 | SimulateDc, PropsSimulateDc | the linear DC sweep (C13, C15), whose points are the operating points of C192 with one source changed, and the table of results (C36) put together |
| C195 | PropsSimulateOp | completeness of C192 and C194: a regular system of positive resistors stays regular with conductances to ground (sum of powers), so each call of the linear solver succeeds; two negative resistors defeat every method |
| C196 | SimulateTran, PropsSimulateTran | the transient loop (C22), the differentiation formulas (C17, C20, C77), the system of one time (C03, C07) and the table of results put together; laws with derivatives written with the names and values of the lines; sum of powers (Tellegen) for circuits that dissipate |
| C197, C198 | SimulateNl, PropsSimulateNl | the loop on diodes and transistors with the ports of their lines (C02, C94), the Newton loop (C10, C11), the methods tried by dc_solve (C13), and the operating point and transient analyses put together; laws within the tolerances, with device currents as functions of the voltages of the nodes of their lines |
| C199, C200 | SimulateAcNl, PropsSimulateAcNl | the AC analysis of netlists with diodes and transistors: the Jacobian at the operating point (ac.py 436-443), the frequency loop (C133), the table of results (C193); the small-signal model of the square-law transistor and the diode against their stamps (C52) |
| C201 | PropsSimulateDcNl | the DC sweep of netlists with diodes and transistors: the loop of C13, an operating point of C197 at each value, the table of results (C194) |
| C202, C203 | SimulatePss, PropsSimulatePss | the periodic steady state analyses: the loops of Pss.v (C46-C48, C118), the system of a transient analysis without gmin, the first samples of shooting from C196, the table of results; C203 refuted by a netlist with a sinusoidal source |
| C204 | Waves, PropsWaves | the parsed parameters of a time function (C45, C129) passed as keyword arguments to the functions of TimeFun.v (C78-C82), and the values of the sources |
| C205 | SimulatePss, PropsSimulatePssNl | the same with diodes, transistors and switches: arbitrary currents and derivatives of the port voltages (the ports stated independently in PropsSimulateNl); refuted for the balance of the currents by a netlist with a diode |
| C206 | SimulatePz, PropsSimulatePz | the way from the text of a netlist to poles and zeros: the algorithm of Pz.v (C61, C62, C119, C120), the matrix with the derivatives of the devices; natural and blocked frequencies stated from the netlist |
| C207 | SimulatePz, PropsSimulatePz | the poles of passive netlists, by the balance of power from C206 |
| C208 | SimulatePz, PropsSimulatePz | the text of the output port; refuted for a single node |
| C209 | SimulateSub, PropsSimulateSub | the way from the text of a netlist with .subckt blocks and X lines to the parts of the circuit; the hierarchy as an inductive type |
| C210 | PropsSimulateHier, PropsSimulateSubLaws | laws of the flattened circuit equivalent to the laws place by place, by induction on the hierarchy, once for all kinds of laws |
| C211 | PropsSimulateSubLaws | C192, C193, C196 and C197 for netlists with subcircuits, by C209 and C210 |
| C212 | SimulateMain, PropsSimulateMain | main: reading, directives, the loop over the analyses, the dictionary of results |
| C213 | PropsSimulateMain | C192, C193, C194 and C196 for the results of main, by C212 and C209 |
| C214 | PropsSimulateMain | main on passive netlists succeeds, by C195 and C196 |
| C215 | PropsSimulateCycle | cyclic subcircuits: the recursion of SimulateSub runs out of every fuel |
| C216 | PropsSimulateIc | the .ic lines: their text, the vector of C34, the start of C196 |
| C217 | SimulateIc, PropsSimulateIcOp | icmodified_x0 on the circuit read from the file; C35 in terms of the netlist |
| C218 | PropsSimulateMainNl | main on circuits with devices: C212 with C197, C201, C198 |
| C219 | SimulateMainPz, PropsSimulateMainPz | main with .pz lines: C212 with C206 |
| C220 | SimulateMainAc, PropsSimulateMainAc | main with .ac lines on circuits with devices: C212 with C199 |
| C221 | SimulateMainPss, PropsSimulateMainPss | main with .pss lines: C212 with C202, C203 and C205 |
| C222 | PropsSimulateMainOp | what .op lines start from: C212, C34 |
| C223 | PropsSimulateMainEq | equilibrium: transient analyses from the operating point with constant sources (C213); false with gmin, true without |
| C224, C225, C226 | PropsSimulateMainRel | relations between results of the program: order of the elements, superposition, sweeps through the written value |
| C224 (transient), C227, C228 | PropsSimulateMainSup | order of the elements and superposition in transient analyses; superposition in AC analyses |
| C229 | PropsSimulateMainFnd | the AC analyses of circuits of resistors, capacitors, inductors and sources always succeed; examples for C224 (AC) and C228 |
| C230 | PropsSimulateMainRec | reciprocity of operating points and AC analyses |
| C231 | PropsSimulateMainMax | node voltages of resistive circuits between those of the sources |
| C133-C135 | Ac, AcFacts, PropsAc | complex numbers as pairs; the excitation vector is the constant vector of a circuit with suitable sources, so that C03, C04, C07 apply; uniqueness from the solver's success |
| C136-C141 | MosModel, PropsMosModel | constructors of the MOS models as functions of optional arguments, sessions as lists of steps; currents through Ekv, Mosq |
| C142-C145 | ModelLines, PropsModelLines | words of .model lines, keyword binding; oracles none |
| C146-C149 | OpReport, PropsOpReport | lines of the operating point report, grouping; nonlinear two-terminal elements as a function of the voltage |
| C150-C155 | DevReport, PropsDevReport | opdict of EKV, mosq and switch as explicit state; scipy.optimize.newton as an oracle that finds the positive zero; numpy comparisons of tuples, lists and numbers by case |
| C156-C162 | Postproc, PropsPostproc | regular expressions as matchers on character lists; drawing and the analyses themselves as oracles |
| C163-C166 | Four, PropsFour | the interpolated signal as a function of time; sampled harmonics are orthogonal (telescoping sums) |
| C123 | DcSolve, PropsDc | accumulator invariant of the loop |
| C64 | Mna | sums |

## Axioms of each theorem

As printed by `Print Assumptions` (the theorems named in MANIFEST.json).  Short
names: D = `ClassicalDedekindReals.sig_forall_dec`, N =
`ClassicalDedekindReals.sig_not_dec`, F =
`FunctionalExtensionality.functional_extensionality_dep`, C =
`Classical_Prop.classic`.  All of them belong to the standard library.

* **none (closed under the global context)**:
  C01_node_table_bijection, C01_node_handles_stable, C01_not_text, C01_internal_nodes,
  C02_handles_distinct_refuted, C02_nodes_stay_registered_refuted, C02_handles_distinct_guarded,
  C02_nodes_stay_registered_guarded, C04_lookup_is_row, C04_find_vde_index,
  C08_bounded_schedule, C08_large_gmin_refuted, C101_refuted, C102_refuted, C102_numbers,
  C103_refuted, C103_name, C104_refuted, C107_refuted, C107_actual, C107_own_guess,
  C109_refuted, C109_kinds, C11_empty, C110_refuted, C110_after_op, C110_netlist_reports,
  C111_two_terminals, C111_controlled, C111_succeed, C111_coupling, C112_removes_one,
  C112_ground_stays, C113_groups, C113_errors, C114_numbers, C114_refuted, C114_blank_refuted,
  C115_opens, C115_case_refuted, C116_no_continuation, C116_refuted, C116_none_refuted,
  C117_fits, C121_with_zeros, C121_poles_only, C121_calculate_poles, C123_iterations,
  C124_substituted, C124_others_kept, C124_no_effect, C124_conductance_refuted,
  C124_conductance_entry, C126_comments, C126_comments_cvi, C126_comments_refuted, C127_voltage,
  C127_current, C127_current_refuted, C127_voltage_refuted, C128_area_ic, C128_off_refuted,
  C128_temperature_refuted, C129_documented, C129_only, C129_words, C129_capacitor_refuted,
  C129_diode_model_refuted, C13_all_points, C130_order, C130_coupling, C130_coupling_refuted,
  C131_reported, C131_reported_refuted, C142_written, C142_one_threshold_refuted, C143_order,
  C143_comments, C143_parentheses, C144_reported, C144_unknown_parameter_refuted,
  C144_no_number_refuted, C144_text_refuted, C145_last_wins, C145_distinct,
  C145_redefined_refuted, C149_tables, C153_new_refuted, C155_dc, C155_mosq_refuted,
  C156_labels, C156_none, C156_only, C156_order_refuted, C159_four_fft, C159_plot_refuted,
  C16_one_point_fails, C160_four, C160_blank_refuted, C160_fundamental_refuted, C161_fft,
  C161_unknown_refuted, C161_alfa_refuted, C162_all, C162_stdout, C162_failure_refuted,
  C162_call_fails_refuted, C171_solution, C173_settings, C173_starts, C174_method_refuted,
  C174_method, C174_fixed_step, C175_none_refuted, C175_actual, C176_builtin, C176_default,
  C176_command_line, C177_refuted, C178_words, C178_refuted, C179_refuted, C179_ic_label,
  C180_refuted, C180_explicit, C181_refuted, C181_six_words_refuted, C181_five_words,
  C184_check, C185_ground_refuted, C185_ground, C186_line, C186_capitals_refuted,
  C186_number_refuted, C189_api, C189_netlist, C189_same_type_refuted, C190_unchecked_refuted,
  C20_newest_first, C20_width_checked, C20_ready, C20_matrix, C208_port, C23_constructor,
  C23_combinations, C24_transparent, C24_hit, C26_values, C26_nothing_else, C26_empty,
  C26_unit_letters_refuted, C27_continuation_lines, C28_expansion_guarded,
  C28_names_injective_guarded, C28_caller_node_refuted, C28_two_instances_refuted,
  C29_references_refuted, C29_wrong_source_refuted, C30_read_back, C30_source_back,
  C30_diode_back, C30_values_refuted, C30_ic_refuted, C30_diode_off_refuted, C30_mos_refuted,
  C30_switch_refuted, C30_dc_source_refuted, C30_others_refuted, C36_op, C36_tran, C36_pss,
  C36_dc, C36_ac, C36_case_refuted, C36_sweep_refuted, C37_round_trip, C37_missing_header,
  C37_old_contents, C38_skip_actual, C38_chunks_refuted, C39_actual, C39_one_spelling,
  C39_refuted, C43_queue_runs_once, C43_failure, C43_list, C43_history, C43_empty_list_refuted,
  C44_leak_refuted, C44_same_run, C45_accepts, C45_rejects, C45_values, C45_tables,
  C45_positions, C57_swapped_refuted, C57_from_to, C57_default, C58_lookup_by_name,
  C58_duplicate_check, C58_duplicate_check_case_refuted, C59_failed_insertion_refuted,
  C59_failed_diode_refuted, C59_capacitor_coupling_guarded, C79_full_cache_refuted, C81_others,
  C83_eof_refuted, C84_with_zeros, C84_no_zeros_refuted
* **D**:
  C12_iterations_bounded, C12_converged_means_checked, C121_refuted, C124_refuted,
  C140_mosq_type, C140_lower_case, C140_ekv_type_refuted, C163_difference, C171_tfs_refuted,
  C34_named_unknowns, C34_unknown_rejected, C34_punctuation_refuted, C42_place_refuted,
  C42_actual_place, C42_right_place, C95_grounded_refuted, C95_otherwise
* **D, F**:
  C03_node_rows_are_KCL, C03_shorted_element_is_neutral, C04_branch_rows, C04_assembly_succeeds,
  C05_reduced_iff_full, C05_reduced_iff_physical, C06_ccvs_law_refuted, C06_ccvs_row,
  C06_ccvs_forward_reference_refuted, C07_dynamic_matrix, C09_converged_refuted,
  C09_retry_refuted, C09_singular_circuit_refuted, C09_converged_guarded,
  C09_converged_solves_last_call, C10_damping, C10_order_independent, C105_actual, C105_refuted,
  C106_lines, C108_refuted, C108_lists, C11_convergence_check, C11_monotone, C118_refuted,
  C118_small_fails, C118_large, C12_linear_one_step, C125_same_system, C125_usual_names,
  C125_refuted, C13_source_restored, C13_rows_paired, C139_oxide,
  C14_sweep_within_interval_refuted, C14_whole_steps_guarded, C14_overshoot_bounded, C146_lines,
  C146_powers_balance, C147_total_power, C148_flux, C148_coupled_refuted, C15_linear_axis,
  C15_linear_single, C152_right, C152_stale_refuted, C16_step_given, C16_points_given,
  C16_both_given, C16_none_given, C164_actual, C164_half_refuted, C164_most_refuted,
  C167_solution, C167_clash_refuted, C168_gain, C168_unknown_refuted, C169_returns,
  C169_no_solution_refuted, C17_implicit_euler, C17_trapezoidal, C17_gear, C169_returns,
  C170_command_line_refuted, C172_small_signal, C18_implicit_euler_refuted,
  C18_implicit_euler_actual, C18_trapezoidal, C18_gear, C187_pulse_refuted, C187_pulse,
  C188_consistent, C188_zero_refuted, C19_implicit_euler, C19_trapezoidal, C19_gear, C210_dc,
  C230_laws, C231_laws, C31_waveform, C31_no_jumps, C31_bounded, C31_periodic, C31_levels,
  C33_interpolates, C33_repeats, C35_grounded_refuted, C35_zero_refuted,
  C35_conditions_hold_guarded, C40_flags, C40_symmetric, C41_power_guarded, C41_H_refuted,
  C41_G_refuted, C42_refuted, C42_first_is_kept, C42_guess_reached, C46_cyclic, C46_residual,
  C46_fixed_point, C46_linear, C46_four, C47_wrap, C47_length, C48_residual, C48_zero,
  C48_newton, C48_linear, C49_stamp, C53_thresholds, C53_switches, C53_hold, C53_idempotent,
  C53_bounds, C53_go, C53_shared, C53_needs_rounding, C60_refuted, C60_isolated_nodes,
  C60_no_false_alarm, C61_current_vector, C61_jacobian_is_derivative, C63_agree,
  C63_number_refuted, C63_vccs_refuted, C63_coupling_refuted, C63_time_refuted, C63_refuses,
  C64_gmin_adds_node_conductances, C65_shorted_source_refuted, C66_vcvs_feedback_refuted,
  C04_branch_rows, C67_time_dependent_sources, C68_linear_op_physical, C69_linear_exact_refuted,
  C69_linear_exact_guarded, C70_grounded_port_refuted, C70_small_moves_undamped_guarded,
  C71_nothing_solved_refuted, C71_no_skip_guarded, C71_no_skip_all_or_nothing,
  C72_error_is_residual_refuted, C73_estimate_trapezoidal, C73_estimate_gear,
  C73_estimate_implicit_euler_refuted, C74_gear_leading_coefficient, C80_delay_refuted,
  C80_delay_guarded, C82_extrapolates_refuted, C86_actual, C86_von_refuted,
  C86_negative_window_refuted, C86_one_refuted, C86_vt_vh, C87_actual, C87_vout_refuted,
  C94_gstamp, C94_istamp_distinct, C94_istamp_shared_refuted, C95_grounded_channel_refuted
* **D, N, F**:
  C119_zeros, C119_all, C120_refuted, C120_parallel, C120_output_refuted, C120_one_call,
  C120_second_call, C139_GAMMA_refuted, C139_VFB_refuted, C141_mosq, C153_right,
  C153_equal_voltages, C153_twice_refuted, C153_stale_refuted, C154_forward,
  C154_reverse_refuted, C157_plot, C157_ac_actual, C157_ac_refuted, C157_ground_refuted,
  C158_missing_refuted, C163_window, C163_short, C163_python3_refuted, C165_thd, C165_lines,
  C166_normalized, C166_scale_refuted, C187_exp_refuted, C190_energy, C191_ratio,
  C191_ratio_refuted, C192_operating_point, C192_text, C194_dc, C195_found, C195_sweep,
  C195_found_refuted, C196_regular, C197_nonlinear, C197_devices, C200_forward, C201_dc_devices,
  C204_wave, C204_rise, C204_line, C206_poles_zeros, C207_passive, C208_single, C208_node,
  C208_ground_refuted, C209_text, C209_errors, C209_load, C210_ac, C210_tran, C210_devices,
  C211_operating_point, C211_devices, C215_cycle, C215_recursive_refuted, C217_grounded_refuted,
  C229_regular, C230_ac_laws, C32_sffm_am, C47_refuted, C49_gm_derivative_guarded,
  C49_cut_refuted, C50_passive_refuted, C51_symmetric, C51_zero_bias_refuted, C51_zero_bias_on,
  C51_mirror, C51_gmd_derivative, C51_gmd_cutoff, C51_threshold_jump_refuted, C52_forward,
  C52_reverse_refuted, C52_reverse_columns_refuted, C54_odd, C54_gm_derivative, C55_inverse,
  C62_poles, C62_all, C81_am_refuted, C81_sffm_refuted, C85_round_trip, C88_series_actual,
  C88_area_refuted, C88_unit_area, C90_gm_ohmic, C90_gm_saturation, C90_gm_refuted,
  C90_gmb_p_refuted, C90_gmb_saturation_refuted, C96_p_report_refuted, C96_n_report,
  C96_saturation, C96_linear_refuted, C97_zero_threshold_refuted, C97_otherwise,
  C98_barrier_refuted, C99_lower_bound, C99_slope, C99_continuous
* **D, N, C, F**:
  C100_default_refuted, C100_api, C122_refuted, C132_stored_points, C132_next_step,
  C132_current_tolerance_refuted, C133_points_solve_circuit, C133_damping_refuted,
  C134_superposition, C135_frequencies, C135_single_point, C135_rejected,
  C135_default_type_refuted, C135_negative_start_refuted, C136_mirror, C136_currents,
  C136_default_refuted, C136_TCV_refuted, C136_VFB_refuted, C137_given_values, C137_one_change,
  C137_second_change_refuted, C137_restore_refuted, C138_at_creation, C138_later_refuted,
  C138_thermal_voltage_refuted, C139_surface_potential, C139_built_is_physical,
  C139_hot_refuted, C141_ekv_current, C141_ekv_conductances_refuted, C15_log_axis, C150_fresh,
  C150_derived, C150_saturation, C150_values, C151_n, C151_p_refuted, C182_linear, C182_log,
  C182_points, C182_log_refuted, C183_accepts, C183_log_down_refuted, C193_ac, C196_tran,
  C196_found, C198_nonlinear_tran, C199_ac_devices, C200_reversed_refuted, C202_brute_force,
  C203_shooting, C203_refuted, C205_brute_force, C205_shooting, C205_refuted,
  C21_ends_at_tstop_refuted, C21_time_axis_guarded, C211_ac, C211_tran, C212_op, C212_dc,
  C212_ac, C212_tran, C213_op, C213_tran, C213_dc, C213_ac, C214_op, C214_tran, C216_ic,
  C217_conditions_guarded, C218_op, C218_dc, C218_tran, C219_pz_guarded, C219_alone_refuted,
  C22_within_tstop_refuted, C22_fixed_step_points_guarded, C220_ac, C221_brute_force,
  C221_shooting, C221_brute_force_devices, C221_shooting_devices, C221_refuted, C222_op_start,
  C223_stays_guarded, C223_stays_refuted, C224_op, C224_ac, C224_tran, C225_superposition,
  C226_sweep, C227_superposition, C228_superposition, C228_dc_values, C229_ac, C229_found,
  C230_op, C230_ac, C231_op, C231_sweep, C25_stale_refuted, C25_differ, C25_fresh_guarded,
  C32_sin, C32_exp, C49_monotone, C49_breakdown_refuted, C50_passive_up_to_offset, C50_forward,
  C55_v_of_q, C55_increasing, C55_unique_current, C55_newton_derivatives, C55_exchange,
  C55_exchange_conductances, C55_zero_bias, C56_power_of_two, C62_refuted,
  C75_step_control_terminates, C76_fixed_step_refuted, C76_empty_interval_refuted,
  C77_history_available, C78_points_solve_circuit, C85_degrees_refuted, C89_pollution_refuted,
  C89_parameters_kept, C89_no_series, C91_mirror, C91_gmg_refuted, C92_spurious_refuted,
  C92_positive, C93_path_independent, C93_RS_refuted, C93_VT_refuted, C98_passive_guarded
