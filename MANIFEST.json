{
 "claims": [
  {
   "property": "C01",
   "status": "proved",
   "theorems": [
    "C01_node_table_bijection",
    "C01_node_handles_stable",
    "C01_not_text",
    "C01_internal_nodes"
   ],
   "note": "For every history of registration calls, failed ones included."
  },
  {
   "property": "C02",
   "status": "partial",
   "theorems": [
    "C02_handles_distinct_refuted",
    "C02_nodes_stay_registered_refuted",
    "C02_handles_distinct_guarded",
    "C02_nodes_stay_registered_guarded"
   ],
   "note": "REFUTED: remove_elem never renumbers, so a node added after a removal can share the integer of another one; a sensed node can be dropped. Proved when no new name is introduced after the first removal (second half: two-terminal linear elements)."
  },
  {
   "property": "C03",
   "status": "proved",
   "theorems": [
    "C03_node_rows_are_KCL",
    "C03_shorted_element_is_neutral"
   ],
   "note": ""
  },
  {
   "property": "C04",
   "status": "proved",
   "theorems": [
    "C04_branch_rows",
    "C04_lookup_is_row",
    "C04_find_vde_index",
    "C04_assembly_succeeds"
   ],
   "note": "H rows are C06, E rows with feedback C66."
  },
  {
   "property": "C05",
   "status": "proved",
   "theorems": [
    "C05_reduced_iff_full",
    "C05_reduced_iff_physical"
   ],
   "note": "The physical form is for circuits without H sources and with E sense nodes apart (C06, C66)."
  },
  {
   "property": "C06",
   "status": "partial",
   "theorems": [
    "C06_ccvs_law_refuted",
    "C06_ccvs_row",
    "C06_ccvs_forward_reference_refuted"
   ],
   "note": "REFUTED: the sign of the controlled voltage is reversed, and an H element placed before its sensing source crashes the assembly. Proved: V(n1)-V(n2) = -alpha*I."
  },
  {
   "property": "C07",
   "status": "proved",
   "theorems": [
    "C07_dynamic_matrix"
   ],
   "note": "With options.cmin accounted for; couplings name existing inductors exactly."
  },
  {
   "property": "C08",
   "status": "proved",
   "theorems": [
    "C08_bounded_schedule",
    "C08_large_gmin_refuted"
   ],
   "note": "Bound 22: the last failed step is repeated once. The condition on gmin is needed (second theorem)."
  },
  {
   "property": "C09",
   "status": "partial",
   "theorems": [
    "C09_converged_refuted",
    "C09_retry_refuted",
    "C09_singular_circuit_refuted",
    "C09_converged_guarded",
    "C09_converged_solves_last_call"
   ],
   "note": "REFUTED: source stepping may end at 90% of the sources (0.1% through the repeated step), and the solution of a singular circuit reported as the one without gmin has 1e-10 S at the nodes. Proved with the standard method only; in general the system of the last call is solved."
  },
  {
   "property": "C10",
   "status": "proved",
   "theorems": [
    "C10_damping",
    "C10_order_independent"
   ],
   "note": ""
  },
  {
   "property": "C100",
   "status": "partial",
   "theorems": [
    "C100_default_refuted",
    "C100_api"
   ],
   "note": "REFUTED for the directive: two points. Proved for the call from Python."
  },
  {
   "property": "C101",
   "status": "partial",
   "theorems": [
    "C101_refuted"
   ],
   "note": "REFUTED: points is required."
  },
  {
   "property": "C102",
   "status": "partial",
   "theorems": [
    "C102_refuted",
    "C102_numbers"
   ],
   "note": "REFUTED: the text is kept in place of the number."
  },
  {
   "property": "C103",
   "status": "partial",
   "theorems": [
    "C103_refuted",
    "C103_name"
   ],
   "note": "REFUTED for numeric names, which become numbers. Proved for all others."
  },
  {
   "property": "C104",
   "status": "partial",
   "theorems": [
    "C104_refuted"
   ],
   "note": "REFUTED with numpy >= 1.12: a float is used as a slice index. The numpy behaviour is a parameter of the model."
  },
  {
   "property": "C105",
   "status": "partial",
   "theorems": [
    "C105_actual",
    "C105_refuted"
   ],
   "note": "REFUTED (with a numpy that accepts float slices): the lines are at k*f*2n^2/(2n^2+1), n of them."
  },
  {
   "property": "C106",
   "status": "proved",
   "theorems": [
    "C106_lines"
   ],
   "note": "for a numpy that accepts float slices, cf. C104."
  },
  {
   "property": "C107",
   "status": "partial",
   "theorems": [
    "C107_refuted",
    "C107_actual",
    "C107_own_guess"
   ],
   "note": "REFUTED: after a shorted port the guesses are shifted. Proved for ports before the first shorted one."
  },
  {
   "property": "C108",
   "status": "partial",
   "theorems": [
    "C108_refuted",
    "C108_lists"
   ],
   "note": "REFUTED: dc_guess becomes a number, indexing it raises TypeError. Proved for all circuits without such elements."
  },
  {
   "property": "C109",
   "status": "partial",
   "theorems": [
    "C109_refuted",
    "C109_kinds"
   ],
   "note": "REFUTED: \"temp\" is in no table, so the directive is a parse error whatever its argument; so is every directive that is not one of the seven analyses (proved)."
  },
  {
   "property": "C11",
   "status": "proved",
   "theorems": [
    "C11_convergence_check",
    "C11_monotone",
    "C11_empty"
   ],
   "note": ""
  },
  {
   "property": "C110",
   "status": "partial",
   "theorems": [
    "C110_refuted",
    "C110_after_op",
    "C110_netlist_reports"
   ],
   "note": "REFUTED through run: the text is replaced by None, and None is the zero vector. Proved: after an operating point in the same list it is used; from a netlist a missing one is reported."
  },
  {
   "property": "C111",
   "status": "proved",
   "theorems": [
    "C111_two_terminals",
    "C111_controlled",
    "C111_succeed",
    "C111_coupling"
   ],
   "note": ""
  },
  {
   "property": "C112",
   "status": "proved",
   "theorems": [
    "C112_removes_one",
    "C112_ground_stays"
   ],
   "note": ""
  },
  {
   "property": "C113",
   "status": "proved",
   "theorems": [
    "C113_groups",
    "C113_errors"
   ],
   "note": ""
  },
  {
   "property": "C114",
   "status": "partial",
   "theorems": [
    "C114_numbers",
    "C114_refuted",
    "C114_blank_refuted"
   ],
   "note": "REFUTED: continuation lines and the blank line after a line are not counted. Proved for netlists without blank, continuation and include lines."
  },
  {
   "property": "C115",
   "status": "partial",
   "theorems": [
    "C115_opens",
    "C115_case_refuted"
   ],
   "note": "REFUTED on case sensitive file systems: the path is put in lower case. Proved for paths without capital letters."
  },
  {
   "property": "C116",
   "status": "partial",
   "theorems": [
    "C116_no_continuation",
    "C116_refuted",
    "C116_none_refuted"
   ],
   "note": "REFUTED: continuation lines are not joined, and without a file name a TypeError is raised. Proved without continuation lines."
  },
  {
   "property": "C117",
   "status": "proved",
   "theorems": [
    "C117_fits"
   ],
   "note": "The signatures are written out in the theorem file; TypeErrors through the values are C101, C102."
  },
  {
   "property": "C118",
   "status": "partial",
   "theorems": [
    "C118_refuted",
    "C118_small_fails",
    "C118_large"
   ],
   "note": "REFUTED: with unknowns*points at most 400 the dense arrays are multiplied componentwise and the convergence check raises ValueError."
  },
  {
   "property": "C119",
   "status": "proved",
   "theorems": [
    "C119_zeros",
    "C119_all"
   ],
   "note": "Without couplings; without the case of a shift over 1e12, where no zeros are given at all. numpy inv, det and eigvals are assumed right."
  },
  {
   "property": "C12",
   "status": "proved",
   "theorems": [
    "C12_iterations_bounded",
    "C12_converged_means_checked",
    "C12_linear_one_step"
   ],
   "note": ""
  },
  {
   "property": "C120",
   "status": "partial",
   "theorems": [
    "C120_refuted",
    "C120_parallel",
    "C120_output_refuted",
    "C120_one_call",
    "C120_second_call"
   ],
   "note": "REFUTED: two capacitors in parallel make the matrix singular at any shift, and an output that sees no reactive element multiplies a null shift by 10: the function calls itself until python raises RecursionError."
  },
  {
   "property": "C121",
   "status": "partial",
   "theorems": [
    "C121_with_zeros",
    "C121_refuted",
    "C121_poles_only",
    "C121_calculate_poles"
   ],
   "note": "REFUTED: without zeros the data is not stored and subscripting raises AttributeError; calculate_poles subscripts with 0 and always raises. Proved when there are zeros."
  },
  {
   "property": "C122",
   "status": "partial",
   "theorems": [
    "C122_refuted"
   ],
   "note": "REFUTED: the units say rad/s, the values are in Hz."
  },
  {
   "property": "C123",
   "status": "proved",
   "theorems": [
    "C123_iterations"
   ],
   "note": ""
  },
  {
   "property": "C124",
   "status": "partial",
   "theorems": [
    "C124_substituted",
    "C124_others_kept",
    "C124_no_effect",
    "C124_refuted",
    "C124_conductance_refuted",
    "C124_conductance_entry"
   ],
   "note": "Proved for R, C, L, E, F, H. REFUTED for V, I, G, K, whose symbols are looked up with other assumptions, and for resistors with symb_formulate_with_gs."
  },
  {
   "property": "C125",
   "status": "partial",
   "theorems": [
    "C125_same_system",
    "C125_usual_names",
    "C125_refuted"
   ],
   "note": "Proved when the symbols of the resistors begin with R. REFUTED for ids which differ in the first letter, which add_resistor accepts."
  },
  {
   "property": "C126",
   "status": "partial",
   "theorems": [
    "C126_comments",
    "C126_comments_cvi",
    "C126_comments_refuted"
   ],
   "note": "Proved for D, E, F, G, H, M, R, S, and for C, V, I without initial condition or time function. REFUTED: the initial condition of a capacitor is dropped, inductors and couplings raise IndexError, words of the comment are taken for parameters after a short time function."
  },
  {
   "property": "C127",
   "status": "partial",
   "theorems": [
    "C127_voltage",
    "C127_current",
    "C127_current_refuted",
    "C127_voltage_refuted"
   ],
   "note": "Proved for voltage sources. REFUTED for current sources: IndexError. The delay of an FM source cannot be written."
  },
  {
   "property": "C128",
   "status": "partial",
   "theorems": [
    "C128_area_ic",
    "C128_off_refuted",
    "C128_temperature_refuted"
   ],
   "note": "Proved for AREA and IC. REFUTED: no line with OFF is accepted, T has no effect."
  },
  {
   "property": "C129",
   "status": "partial",
   "theorems": [
    "C129_documented",
    "C129_only",
    "C129_words",
    "C129_capacitor_refuted",
    "C129_diode_model_refuted"
   ],
   "note": "Proved, in both directions for E, F, G, H, R, S; for every letter, what is accepted has the kind of its letter, the first words as name, nodes and model, a value and a known model. REFUTED: a diode is accepted with a model of another kind; the word after the value of a capacitor or inductor is not checked when a comment follows."
  },
  {
   "property": "C13",
   "status": "proved",
   "theorems": [
    "C13_source_restored",
    "C13_rows_paired",
    "C13_all_points"
   ],
   "note": "For every call that returns; calls that raise are covered by C71."
  },
  {
   "property": "C130",
   "status": "partial",
   "theorems": [
    "C130_order",
    "C130_coupling",
    "C130_coupling_refuted"
   ],
   "note": "Proved for netlists without couplings and subcircuit instances; a coupling gets the values of the inductors it names, in any order. REFUTED for a coupling before its inductors: NetlistParseError."
  },
  {
   "property": "C131",
   "status": "partial",
   "theorems": [
    "C131_reported",
    "C131_reported_refuted"
   ],
   "note": "Proved for unknown letters and missing fields. REFUTED: ValueError, IndexError and TypeError escape for malformed numbers, extra fields, options."
  },
  {
   "property": "C132",
   "status": "partial",
   "theorems": [
    "C132_stored_points",
    "C132_next_step",
    "C132_current_tolerance_refuted"
   ],
   "note": "Proved with vea as the absolute tolerance of all the components. REFUTED for currents: iea is not used, an error of 1e-6 A is accepted with iea = 1e-9."
  },
  {
   "property": "C133",
   "status": "partial",
   "theorems": [
    "C133_points_solve_circuit",
    "C133_damping_refuted"
   ],
   "note": "Proved with the default options (standard method enabled, no damping of the first iterations); H sources enter with the sign of C06; gmin is left out where with it the system is singular. REFUTED with options.nr_damp_first_iters: 1% of the solution is stored."
  },
  {
   "property": "C134",
   "status": "proved",
   "theorems": [
    "C134_superposition"
   ],
   "note": "With the standard method enabled and no damping of the first iterations. The runs may differ in the sweep."
  },
  {
   "property": "C135",
   "status": "partial",
   "theorems": [
    "C135_frequencies",
    "C135_single_point",
    "C135_rejected",
    "C135_default_type_refuted",
    "C135_negative_start_refuted"
   ],
   "note": "Proved for given types and positive start. REFUTED: without sweep_type AttributeError is raised instead of a logarithmic sweep; a negative start frequency is accepted."
  },
  {
   "property": "C136",
   "status": "partial",
   "theorems": [
    "C136_mirror",
    "C136_currents",
    "C136_default_refuted",
    "C136_TCV_refuted",
    "C136_VFB_refuted"
   ],
   "note": "Proved when VTO and TCV are given (mosq: TCV only). REFUTED: the default VTO of an ekv p model is a depletion threshold, the default TCV has the sign of the n device, VFB ignores the polarity."
  },
  {
   "property": "C137",
   "status": "partial",
   "theorems": [
    "C137_given_values",
    "C137_one_change",
    "C137_second_change_refuted",
    "C137_restore_refuted"
   ],
   "note": "Proved for the first change from the nominal temperature. REFUTED for a second one: the changes accumulate, and the nominal temperature does not restore the nominal values."
  },
  {
   "property": "C138",
   "status": "partial",
   "theorems": [
    "C138_at_creation",
    "C138_later_refuted",
    "C138_thermal_voltage_refuted"
   ],
   "note": "Proved for models made after set_temperature. REFUTED: models made before keep their temperature; the EKV equations use kT/q of 300 K at every temperature."
  },
  {
   "property": "C139",
   "status": "partial",
   "theorems": [
    "C139_oxide",
    "C139_surface_potential",
    "C139_built_is_physical",
    "C139_GAMMA_refuted",
    "C139_VFB_refuted",
    "C139_hot_refuted"
   ],
   "note": "Proved for COX, KP, PHI and for the models just made. REFUTED: GAMMA has COX under the root; VTO from VFB uses GAMMA PHI and raises TypeError unless PHI and GAMMA are given; at 1000 K PHI is negative."
  },
  {
   "property": "C14",
   "status": "partial",
   "theorems": [
    "C14_sweep_within_interval_refuted",
    "C14_whole_steps_guarded",
    "C14_overshoot_bounded"
   ],
   "note": "REFUTED: 0 to 1 by 0.4 visits 1.2. Proved for a whole number of steps; the overshoot is less than one step."
  },
  {
   "property": "C140",
   "status": "partial",
   "theorems": [
    "C140_mosq_type",
    "C140_lower_case",
    "C140_ekv_type_refuted"
   ],
   "note": "Proved for mosq and for lower-case types. REFUTED for ekv: \"N\" and any other word make a p-channel device."
  },
  {
   "property": "C141",
   "status": "partial",
   "theorems": [
    "C141_mosq",
    "C141_ekv_current",
    "C141_ekv_conductances_refuted"
   ],
   "note": "Proved for mosq and for the EKV current. REFUTED for the EKV conductances, which ignore M."
  },
  {
   "property": "C142",
   "status": "partial",
   "theorems": [
    "C142_written",
    "C142_one_threshold_refuted"
   ],
   "note": "Proved, for a switch when both VON and VOFF are given or none. REFUTED for a switch with one of them: TypeError."
  },
  {
   "property": "C143",
   "status": "proved",
   "theorems": [
    "C143_order",
    "C143_comments",
    "C143_parentheses"
   ],
   "note": ""
  },
  {
   "property": "C144",
   "status": "partial",
   "theorems": [
    "C144_reported",
    "C144_unknown_parameter_refuted",
    "C144_no_number_refuted",
    "C144_text_refuted"
   ],
   "note": "Proved for missing words and unknown types. REFUTED: TypeError for an unknown parameter, ValueError for a value that is no number, nothing at all for LAMBDA and XJ."
  },
  {
   "property": "C145",
   "status": "partial",
   "theorems": [
    "C145_last_wins",
    "C145_distinct",
    "C145_redefined_refuted"
   ],
   "note": "Proved for labels that differ. REFUTED: a second definition silently replaces the first."
  },
  {
   "property": "C146",
   "status": "proved",
   "theorems": [
    "C146_lines",
    "C146_powers_balance"
   ],
   "note": "The nonlinear elements are functions of their voltage; solutions are exact."
  },
  {
   "property": "C147",
   "status": "proved",
   "theorems": [
    "C147_total_power"
   ],
   "note": "With controlled sources see C41."
  },
  {
   "property": "C148",
   "status": "partial",
   "theorems": [
    "C148_flux",
    "C148_coupled_refuted"
   ],
   "note": "Proved for inductors without couplings. REFUTED with a coupling: only L i is shown."
  },
  {
   "property": "C149",
   "status": "proved",
   "theorems": [
    "C149_tables"
   ],
   "note": ""
  },
  {
   "property": "C15",
   "status": "proved",
   "theorems": [
    "C15_linear_axis",
    "C15_linear_single",
    "C15_log_axis"
   ],
   "note": ""
  },
  {
   "property": "C150",
   "status": "proved",
   "theorems": [
    "C150_fresh",
    "C150_derived",
    "C150_saturation",
    "C150_values"
   ],
   "note": "For a Newton iteration that finds the positive solution of its equation (see C92 for the spurious one)."
  },
  {
   "property": "C151",
   "status": "partial",
   "theorems": [
    "C151_n",
    "C151_p_refuted"
   ],
   "note": "Proved for n devices. REFUTED for p devices: the sign is wrong."
  },
  {
   "property": "C152",
   "status": "partial",
   "theorems": [
    "C152_right",
    "C152_stale_refuted"
   ],
   "note": "REFUTED: a report at the voltages of the last one repeats it, though the switch has changed. Proved otherwise."
  },
  {
   "property": "C153",
   "status": "partial",
   "theorems": [
    "C153_right",
    "C153_equal_voltages",
    "C153_new_refuted",
    "C153_twice_refuted",
    "C153_stale_refuted"
   ],
   "note": "Proved when the three voltages are not all equal, or come from another drain-source voltage. REFUTED: never evaluated, or twice with three equal voltages: AttributeError; with drain and source on one node the values of an earlier gate voltage remain."
  },
  {
   "property": "C154",
   "status": "partial",
   "theorems": [
    "C154_forward",
    "C154_reverse_refuted"
   ],
   "note": "Proved in the forward direction. REFUTED with drain and source exchanged: all are zero."
  },
  {
   "property": "C155",
   "status": "partial",
   "theorems": [
    "C155_dc",
    "C155_mosq_refuted"
   ],
   "note": "Proved for diodes, tunnel junctions, EKV transistors and switches. REFUTED for square-law transistors: AttributeError."
  },
  {
   "property": "C156",
   "status": "partial",
   "theorems": [
    "C156_labels",
    "C156_none",
    "C156_only",
    "C156_order_refuted"
   ],
   "note": "Proved: exactly the signals written, each once, in groups (pairs, voltages, currents), in order inside a group. REFUTED: the order written is not kept between groups."
  },
  {
   "property": "C157",
   "status": "partial",
   "theorems": [
    "C157_plot",
    "C157_ac_actual",
    "C157_ac_refuted",
    "C157_ground_refuted"
   ],
   "note": "Proved for real data. REFUTED: in AC the difference of the magnitudes is drawn; V(a,0) fails with ValueError."
  },
  {
   "property": "C158",
   "status": "partial",
   "theorems": [
    "C158_missing_refuted"
   ],
   "note": "REFUTED: the error for a missing signal (KeyError) is not the one caught (ValueError); the plot ends. C157_plot is the positive part."
  },
  {
   "property": "C159",
   "status": "partial",
   "theorems": [
    "C159_four_fft",
    "C159_plot_refuted"
   ],
   "note": "Proved for .four and .fft. REFUTED for .plot: signals in the comment are plotted."
  },
  {
   "property": "C16",
   "status": "proved",
   "theorems": [
    "C16_step_given",
    "C16_points_given",
    "C16_both_given",
    "C16_none_given",
    "C16_one_point_fails"
   ],
   "note": "points >= 2; one point divides by zero."
  },
  {
   "property": "C160",
   "status": "partial",
   "theorems": [
    "C160_four",
    "C160_blank_refuted",
    "C160_fundamental_refuted"
   ],
   "note": "Proved for variables without blanks. REFUTED: V(a, b) with a blank is refused; a fundamental that is no number gives ValueError."
  },
  {
   "property": "C161",
   "status": "partial",
   "theorems": [
    "C161_fft",
    "C161_unknown_refuted",
    "C161_alfa_refuted"
   ],
   "note": "Proved for known parameters. REFUTED: an unknown one gives KeyError, and so does ALFA, which the manual names."
  },
  {
   "property": "C162",
   "status": "partial",
   "theorems": [
    "C162_all",
    "C162_stdout",
    "C162_failure_refuted",
    "C162_call_fails_refuted"
   ],
   "note": "Proved without failures. REFUTED: the first failure ends the post-processing."
  },
  {
   "property": "C163",
   "status": "partial",
   "theorems": [
    "C163_window",
    "C163_short",
    "C163_python3_refuted",
    "C163_difference"
   ],
   "note": "Proved where integers are obtained from // of floats as array sizes (old numpy). REFUTED for Python 3 with numpy from 1.12 on: TypeError always."
  },
  {
   "property": "C164",
   "status": "partial",
   "theorems": [
    "C164_actual",
    "C164_half_refuted",
    "C164_most_refuted"
   ],
   "note": "REFUTED: 2.5 periods use 80 percent; from four periods on another period would always fit in the half. Proved what is used."
  },
  {
   "property": "C165",
   "status": "proved",
   "theorems": [
    "C165_thd",
    "C165_lines"
   ],
   "note": "Signal taken as interpolated exactly; array sizes as with C163."
  },
  {
   "property": "C166",
   "status": "partial",
   "theorems": [
    "C166_normalized",
    "C166_scale_refuted"
   ],
   "note": "REFUTED: the DC component is the mean times the number of samples, a magnitude the amplitude times half of it. Proved: reference line and ratios (DC counts twice its value)."
  },
  {
   "property": "C167",
   "status": "partial",
   "theorems": [
    "C167_solution",
    "C167_clash_refuted"
   ],
   "note": "Proved if no unknown has the symbol of an element, with sympy.solve as an oracle that gives an equivalent system. REFUTED otherwise: a source \"Vin\" and a node \"in\" share a symbol, and the equations then say that all is zero."
  },
  {
   "property": "C168",
   "status": "partial",
   "theorems": [
    "C168_gain",
    "C168_unknown_refuted"
   ],
   "note": "Proved for sources of the circuit, with diff as an oracle for the derivative. REFUTED: a source that is not in the circuit gives transfer functions that are zero, without an error."
  },
  {
   "property": "C169",
   "status": "partial",
   "theorems": [
    "C169_returns",
    "C169_no_solution_refuted"
   ],
   "note": "Proved with a solution. REFUTED: without one sympy.solve gives a list, and .keys() fails with AttributeError before the warning."
  },
  {
   "property": "C17",
   "status": "proved",
   "theorems": [
    "C17_implicit_euler",
    "C17_trapezoidal",
    "C17_gear"
   ],
   "note": ""
  },
  {
   "property": "C170",
   "status": "partial",
   "theorems": [
    "C169_returns",
    "C170_command_line_refuted"
   ],
   "note": "Proved under Python 2 (and without command line). REFUTED under Python 3: keys.sort(lambda) is a TypeError."
  },
  {
   "property": "C171",
   "status": "partial",
   "theorems": [
    "C171_solution",
    "C171_tfs_refuted"
   ],
   "note": "Proved for solutions. REFUTED for transfer functions: their keys are strings, AttributeError always."
  },
  {
   "property": "C172",
   "status": "proved",
   "theorems": [
    "C172_small_signal"
   ],
   "note": ""
  },
  {
   "property": "C173",
   "status": "proved",
   "theorems": [
    "C173_settings",
    "C173_starts"
   ],
   "note": "optparse itself is not modelled; float and int are oracles."
  },
  {
   "property": "C174",
   "status": "partial",
   "theorems": [
    "C174_method_refuted",
    "C174_method",
    "C174_fixed_step"
   ],
   "note": "REFUTED: a METHOD in the .tran line wins over -t. Proved: without one -t counts; --t-fixed-step always counts."
  },
  {
   "property": "C175",
   "status": "partial",
   "theorems": [
    "C175_none_refuted",
    "C175_actual"
   ],
   "note": "REFUTED: --dc-guess none stores the text \"none\", which is true; the guess is used. Proved: only the empty text switches it off."
  },
  {
   "property": "C176",
   "status": "proved",
   "theorems": [
    "C176_builtin",
    "C176_default",
    "C176_command_line"
   ],
   "note": ""
  },
  {
   "property": "C177",
   "status": "partial",
   "theorems": [
    "C177_refuted"
   ],
   "note": "REFUTED: imp.load_module gets one argument instead of four; the TypeError is caught and the analysis ends."
  },
  {
   "property": "C178",
   "status": "partial",
   "theorems": [
    "C178_words",
    "C178_refuted"
   ],
   "note": "REFUTED: .dc src=, .ac sweep_type=, .pz source= and zeros= are refused. Proved for the 23 other words."
  },
  {
   "property": "C179",
   "status": "partial",
   "theorems": [
    "C179_refuted",
    "C179_ic_label"
   ],
   "note": "REFUTED: guess= takes yes or no; a label is refused. Proved: ic_label= names the starting point."
  },
  {
   "property": "C18",
   "status": "partial",
   "theorems": [
    "C18_implicit_euler_refuted",
    "C18_implicit_euler_actual",
    "C18_trapezoidal",
    "C18_gear"
   ],
   "note": "REFUTED for implicit Euler (the coefficient is h/2, the error h^2/2); proved for the trapezoidal rule and Gear of every order."
  },
  {
   "property": "C180",
   "status": "partial",
   "theorems": [
    "C180_refuted",
    "C180_explicit"
   ],
   "note": "REFUTED: the default is True. Proved: an explicit ac= counts."
  },
  {
   "property": "C181",
   "status": "partial",
   "theorems": [
    "C181_refuted",
    "C181_six_words_refuted",
    "C181_five_words"
   ],
   "note": "REFUTED: a phase is refused, with and without label. Proved for the other five."
  },
  {
   "property": "C182",
   "status": "partial",
   "theorems": [
    "C182_linear",
    "C182_log",
    "C182_points",
    "C182_log_refuted"
   ],
   "note": "Proved: linear sweeps. REFUTED: a logarithmic sweep has ratio (stop/start)^(step/(stop-start)), not step."
  },
  {
   "property": "C183",
   "status": "partial",
   "theorems": [
    "C183_accepts",
    "C183_log_down_refuted"
   ],
   "note": "Proved: the exact condition. REFUTED: a logarithmic sweep downwards is refused only if the type is written LOG."
  },
  {
   "property": "C184",
   "status": "proved",
   "theorems": [
    "C184_check"
   ],
   "note": ""
  },
  {
   "property": "C185",
   "status": "partial",
   "theorems": [
    "C185_ground_refuted",
    "C185_ground"
   ],
   "note": "REFUTED: removing the only element on the ground leaves the ground registered. Proved without removals and refused insertions."
  },
  {
   "property": "C186",
   "status": "partial",
   "theorems": [
    "C186_line",
    "C186_capitals_refuted",
    "C186_number_refuted"
   ],
   "note": "Proved for lines in small letters with names that are no numbers. REFUTED for classes and modules with capital letters, and for names that look like numbers."
  },
  {
   "property": "C187",
   "status": "partial",
   "theorems": [
    "C187_pulse_refuted",
    "C187_pulse",
    "C187_exp_refuted"
   ],
   "note": "REFUTED: pulse takes the width before the fall time, exp the first time constant before the second delay."
  },
  {
   "property": "C188",
   "status": "partial",
   "theorems": [
    "C188_consistent",
    "C188_zero_refuted"
   ],
   "note": "Proved for accepted assignments. REFUTED: an assignment of 0 raises after the attribute was changed."
  },
  {
   "property": "C189",
   "status": "partial",
   "theorems": [
    "C189_api",
    "C189_netlist",
    "C189_same_type_refuted"
   ],
   "note": "Proved for analyses of different types. REFUTED: two of the same type write to the same file."
  },
  {
   "property": "C19",
   "status": "proved",
   "theorems": [
    "C19_implicit_euler",
    "C19_trapezoidal",
    "C19_gear"
   ],
   "note": ""
  },
  {
   "property": "C190",
   "status": "partial",
   "theorems": [
    "C190_energy",
    "C190_unchecked_refuted"
   ],
   "note": "Proved: the condition on the factor. REFUTED: any factor is accepted."
  },
  {
   "property": "C191",
   "status": "partial",
   "theorems": [
    "C191_ratio",
    "C191_ratio_refuted"
   ],
   "note": "REFUTED: the ratio is the square root of L1/L2. Proved: the actual ratio."
  },
  {
   "property": "C192",
   "status": "proved",
   "theorems": [
    "C192_operating_point",
    "C192_text"
   ],
   "note": "End to end: file text to looked-up result. The linear solver is an oracle with the stated behaviour; the Newton loop is set to the settings of a linear circuit (no damping of the first iteration). H sources, voltage-controlled sources sensing their own output and shorted voltage-defined elements are excluded (C05, C06). C192_text: documented element lines are read as what they describe, refused exactly if they are no circuit."
  },
  {
   "property": "C193",
   "status": "proved",
   "theorems": [
    "C193_ac"
   ],
   "note": "End to end: file text to looked-up AC results. The linear solver and numpy.angle are oracles with the stated behaviour (C85_angle shows that one exists); H sources, voltage-controlled sources sensing their own output and shorted voltage-defined elements are excluded as in C192."
  },
  {
   "property": "C194",
   "status": "proved",
   "theorems": [
    "C194_dc"
   ],
   "note": "End to end: file text to looked-up sweep results, linear sweeps. The linear solver is an oracle with the stated behaviour. The clash of names that C36 refutes is a hypothesis."
  },
  {
   "property": "C195",
   "status": "partial",
   "theorems": [
    "C195_found",
    "C195_sweep",
    "C195_found_refuted"
   ],
   "note": "REFUTED: with negative resistors every system tried may be singular though the laws have one solution (any solver, any starting point, default options). Proved for netlists of positive resistors, capacitors, inductors, couplings and independent sources, for the operating point and for sweeps."
  },
  {
   "property": "C196",
   "status": "proved",
   "theorems": [
    "C196_tran",
    "C196_regular",
    "C196_found"
   ],
   "note": "End to end: file text to looked-up transient results. The linear solver is an oracle with the stated behaviour. gmin and cmin are part of the laws, as the code adds them. That the circuit with sources off has no growing solution is a hypothesis of C196_tran, proved by C196_regular for dissipative circuits; C196_found shows that their fixed-step analysis succeeds."
  },
  {
   "property": "C197",
   "status": "proved",
   "theorems": [
    "C197_nonlinear",
    "C197_devices"
   ],
   "note": "End to end: file text to looked-up operating point, for arbitrary device equations. No hypothesis on the linear solver. Device equations are functions of the port voltages (the memory of the models, C24 and C89, is not in this model); switches, H sources, voltage-controlled sources sensing their own output, shorted voltage-defined elements and devices with output port shorted (C94) are excluded. A maximal step of damping greater than 0 is a hypothesis."
  },
  {
   "property": "C198",
   "status": "proved",
   "theorems": [
    "C198_nonlinear_tran"
   ],
   "note": "End to end: file text to looked-up transient results, with the exclusions of C197."
  },
  {
   "property": "C199",
   "status": "proved",
   "theorems": [
    "C199_ac_devices"
   ],
   "note": "End to end: file text to looked-up AC results. Device currents and derivatives are arbitrary functions of the port voltages; the complex linear solver is an oracle with the stated behaviour; exclusions as in C197."
  },
  {
   "property": "C20",
   "status": "proved",
   "theorems": [
    "C20_newest_first",
    "C20_width_checked",
    "C20_ready",
    "C20_matrix"
   ],
   "note": ""
  },
  {
   "property": "C200",
   "status": "partial",
   "theorems": [
    "C200_forward",
    "C200_reversed_refuted"
   ],
   "note": "Proved: circuits whose transistors have vds >= 0 (n-channel) at the operating point. REFUTED: with drain and source exchanged a conducting transistor is invisible to the AC analysis (product of matrices entry by entry, C52)."
  },
  {
   "property": "C201",
   "status": "proved",
   "theorems": [
    "C201_dc_devices"
   ],
   "note": "End to end: file text to looked-up table of a linear DC sweep, for arbitrary device equations; exclusions and oracles as in C197. Where the name of the source clashes with that of a result (C36) nothing is said of the table."
  },
  {
   "property": "C202",
   "status": "proved",
   "theorems": [
    "C202_brute_force"
   ],
   "note": "End to end: file text to looked-up samples of the brute force method. The linear solver is an oracle with the stated behaviour (a solution, and the only one). Whether the analysis returns results is C118."
  },
  {
   "property": "C203",
   "status": "partial",
   "theorems": [
    "C203_shooting",
    "C203_refuted"
   ],
   "note": "REFUTED: the sample at the end of the period differs from the one at its start (witness: a netlist with a sinusoidal current, a resistor and a capacitor). Proved: every sample obeys the laws, the one before the first being the last."
  },
  {
   "property": "C204",
   "status": "proved",
   "theorems": [
    "C204_wave",
    "C204_rise",
    "C204_line"
   ],
   "note": "The delay of am has to be written (C81). Times at or after 0."
  },
  {
   "property": "C205",
   "status": "partial",
   "theorems": [
    "C205_brute_force",
    "C205_shooting",
    "C205_refuted"
   ],
   "note": "REFUTED: neither method tests what is left of the currents; a netlist with a diode for which the brute force method stops with 20000 times the tolerance iea left at the node. Proved: the last step obeys the laws with the tangents of the devices, is periodic (brute force), and is shorter than the tolerances. Device currents and derivatives are arbitrary functions of the port voltages."
  },
  {
   "property": "C206",
   "status": "proved",
   "theorems": [
    "C206_poles_zeros"
   ],
   "note": "End to end: file text to poles and zeros, for arbitrary device derivatives; no coupled inductors (C62). numpy inv, det and eigvals are oracles with the stated behaviour. The call is not restarted, or the extra capacitance cmin is zero (else the result of a restart is that of a circuit with added capacitors: C119). Whether the analysis returns results is C120."
  },
  {
   "property": "C207",
   "status": "proved",
   "theorems": [
    "C207_passive"
   ],
   "note": "End to end: file text to poles. Oracles and restarts as in C206."
  },
  {
   "property": "C208",
   "status": "partial",
   "theorems": [
    "C208_port",
    "C208_single",
    "C208_node",
    "C208_ground_refuted"
   ],
   "note": "REFUTED: V(a) is a TypeError and a plain node name a ValueError, for every netlist (tests/pz_spice/pz_spice5.ckt has such a line). Proved: V(a,b) means those nodes."
  },
  {
   "property": "C209",
   "status": "proved",
   "theorems": [
    "C209_text",
    "C209_errors",
    "C209_load"
   ],
   "note": "End to end: file text to the parts of the circuit. Names of nodes, labels and subcircuits contain no dash (C28). Nesting is finite: the recursion of an instance of itself is not modelled beyond its depth. F, H and K lines in subcircuits keep the names they refer to (C29)."
  },
  {
   "property": "C21",
   "status": "partial",
   "theorems": [
    "C21_ends_at_tstop_refuted",
    "C21_time_axis_guarded"
   ],
   "note": "REFUTED: the next step is limited with the time before it was advanced, so the last point may lie past tstop (14095 s for tstop 9999 s). Proved: increasing, gaps at most HMAX, only the last point at or after tstop, by less than HMAX."
  },
  {
   "property": "C210",
   "status": "proved",
   "theorems": [
    "C210_dc",
    "C210_ac",
    "C210_tran",
    "C210_devices"
   ],
   "note": "Equivalence in both directions. Subcircuits have no F, H and K lines (C29 refutes it for them); no place has two instances with the same label and subcircuit. Device equations do not depend on the names of nodes and elements."
  },
  {
   "property": "C211",
   "status": "proved",
   "theorems": [
    "C211_operating_point",
    "C211_ac",
    "C211_tran",
    "C211_devices"
   ],
   "note": "End to end: file text with subcircuits to the reported values, by C209 and C210 from C192, C193, C196 and C197, with their oracles. The other end-to-end claims C194-C208 apply to the flattened circuit by C209_load."
  },
  {
   "property": "C212",
   "status": "proved",
   "theorems": [
    "C212_op",
    "C212_dc",
    "C212_ac",
    "C212_tran"
   ],
   "note": "End to end: file text to the dictionary of results of main. DC sweeps of kind LIN, AC analyses of circuits without devices; the other kinds, pss, pz and symbolic are oracles in this model (their claims are C199-C208). The starting points with uic=2 and uic=3 are C217 and C216."
  },
  {
   "property": "C213",
   "status": "proved",
   "theorems": [
    "C213_op",
    "C213_tran",
    "C213_dc",
    "C213_ac"
   ],
   "note": "C212 composed with C192, C196, C194 and C193, and with their oracles: the linear solver solves and refuses singular matrices only. Existence of results is C214."
  },
  {
   "property": "C214",
   "status": "proved",
   "theorems": [
    "C214_op",
    "C214_tran"
   ],
   "note": "C212 and C213 made unconditional by C195 and C196: the run is shown to succeed. Oracles: the linear solver solves and refuses singular matrices only; icmodified_x0 of an operating point returns something (C35 says what)."
  },
  {
   "property": "C215",
   "status": "partial",
   "theorems": [
    "C215_cycle",
    "C215_recursive_refuted"
   ],
   "note": "REFUTED: no depth of the recursion of parse_sub_instance is enough for such a netlist, so that Python ends with a RecursionError instead. C215_cycle shows it for all netlists where an instance of a cyclic subcircuit is reached after element lines."
  },
  {
   "property": "C216",
   "status": "proved",
   "theorems": [
    "C216_ic"
   ],
   "note": "C212, C34 and C196 composed. The name is not a number (C103) and not op or op+ic; names of nodes in conditions are letters and digits (C34). Oracles as in C213."
  },
  {
   "property": "C217",
   "status": "partial",
   "theorems": [
    "C217_conditions_guarded",
    "C217_grounded_refuted"
   ],
   "note": "REFUTED: for a capacitor with one terminal at ground the voltage of ground is taken to be the last unknown of the circuit, so that a capacitor with ic=5 starts with 4.5 V in the netlist of the refutation (C35). Guarded: with charged capacitors between nodes, not in conflict, the claim holds from the file to the first point. A condition of zero is ignored (C35)."
  },
  {
   "property": "C218",
   "status": "proved",
   "theorems": [
    "C218_op",
    "C218_dc",
    "C218_tran"
   ],
   "note": "C212 composed with C197, C201 and C198. The equations of the devices are a parameter that the stamps of the model agree with (C197). Convergence is not claimed: None results are allowed. Oracles as in C213."
  },
  {
   "property": "C219",
   "status": "partial",
   "theorems": [
    "C219_pz_guarded",
    "C219_alone_refuted"
   ],
   "note": "REFUTED: parse_single_analysis gives each .pz line the starting point \"op\", and a netlist with .pz and no .op line before it ends with a ValueError, also if the circuit is linear (C219_alone_refuted, for all netlists without .ic lines). Guarded: with an .op line before it the claim holds; C212 composed with C206, whose restrictions (no coupled inductors, no restarts with cmin) remain."
  },
  {
   "property": "C22",
   "status": "partial",
   "theorems": [
    "C22_within_tstop_refuted",
    "C22_fixed_step_points_guarded"
   ],
   "note": "REFUTED: 0 to 1 by 0.4 computes 1.2. Proved: the points are tstart + k tstep up to the first not before tstop (trapezoidal rule, the only built-in method that runs without step control, C76)."
  },
  {
   "property": "C220",
   "status": "proved",
   "theorems": [
    "C220_ac"
   ],
   "note": "C212 composed with C199. options.nr_damp_first_iters is off and use_standard_solve_method on, as by default. Oracles as in C213."
  },
  {
   "property": "C221",
   "status": "partial",
   "theorems": [
    "C221_brute_force",
    "C221_shooting",
    "C221_brute_force_devices",
    "C221_shooting_devices",
    "C221_refuted"
   ],
   "note": "REFUTED: autonomous=yes in the line changes nothing, and with shooting the reported voltage at the end of the period is 13/19 V where that at its start is 15/19 V (C221_refuted; C203). The other theorems prove the rest: C212 composed with C202, C203 and C205, with their restrictions. The number of points is a natural number. Convergence is not claimed: None results are allowed."
  },
  {
   "property": "C222",
   "status": "proved",
   "theorems": [
    "C222_op_start"
   ],
   "note": "The name is not a number (C103) and the names in conditions are letters and digits (C34), as in C216. Oracles as in C213."
  },
  {
   "property": "C223",
   "status": "partial",
   "theorems": [
    "C223_stays_guarded",
    "C223_stays_refuted"
   ],
   "note": "REFUTED: the transient analysis has a conductance options.gmin at each node (transient.py 290) and the operating point is solved without it, so that a circuit leaves its operating point at the first step (C223_stays_refuted, for each gmin > 0: the change is of the order of gmin). Guarded: with options.gmin = 0 the claim holds. The circuit is regular, as in C196. None results are allowed. Oracles as in C213."
  },
  {
   "property": "C224",
   "status": "proved",
   "theorems": [
    "C224_op",
    "C224_ac",
    "C224_tran"
   ],
   "note": "That two transient analyses report the same times is an assumption, as in C227. The AC theorem is for the same options gmin and cmin, and the same bound on the points. The circuits have one solution. Oracles as in C213."
  },
  {
   "property": "C225",
   "status": "proved",
   "theorems": [
    "C225_superposition"
   ],
   "note": "The circuits have one operating point. A source with a time function has its value at time 0. Oracles as in C213."
  },
  {
   "property": "C226",
   "status": "proved",
   "theorems": [
    "C226_sweep"
   ],
   "note": "The name of the source is not that of a result (else C194), and the circuit has one solution for each value. Oracles as in C213."
  },
  {
   "property": "C227",
   "status": "proved",
   "theorems": [
    "C227_superposition"
   ],
   "note": "That the times are the same is an assumption: without step control they are multiples of the step (C22), with it they depend on the values. The circuits are regular, as in C196; from the operating point, they have one operating point. Oracles as in C213."
  },
  {
   "property": "C228",
   "status": "proved",
   "theorems": [
    "C228_superposition",
    "C228_dc_values"
   ],
   "note": "The circuits have one solution at each frequency of the sweep (C229: those of resistors, capacitors, inductors and sources do). The phase of a source is not in the netlist model (the amplitude is real). The same options gmin and cmin. Oracles as in C213."
  },
  {
   "property": "C229",
   "status": "proved",
   "theorems": [
    "C229_ac",
    "C229_found",
    "C229_regular"
   ],
   "note": "The solver fails on singular matrices only. The plain method is enabled and the iteration is allowed at least one round; the points are fewer than the bound on the loop of the model. gmin > 0 is needed (with gmin = 0 a node with only a current source has no solution). No coupled inductors or controlled sources. The .ac line is the only directive, with its four values given by position. Oracles as in C213."
  },
  {
   "property": "C23",
   "status": "proved",
   "theorems": [
    "C23_constructor",
    "C23_combinations"
   ],
   "note": ""
  },
  {
   "property": "C230",
   "status": "proved",
   "theorems": [
    "C230_op",
    "C230_ac",
    "C230_laws",
    "C230_ac_laws"
   ],
   "note": "The circuits have one solution (C229: at each frequency, for positive values and gmin > 0). At the level of the laws the sources may be between any two nodes. Oracles as in C213."
  },
  {
   "property": "C231",
   "status": "proved",
   "theorems": [
    "C231_op",
    "C231_sweep",
    "C231_laws"
   ],
   "note": "The voltage sources have their second node at ground. Stated for circuits with one solution; that the program then finds it is C214. Oracles as in C213."
  },
  {
   "property": "C24",
   "status": "proved",
   "theorems": [
    "C24_transparent",
    "C24_hit"
   ],
   "note": ""
  },
  {
   "property": "C25",
   "status": "partial",
   "theorems": [
    "C25_stale_refuted",
    "C25_differ",
    "C25_fresh_guarded"
   ],
   "note": "REFUTED: a voltage evaluated before keeps its cached current after every temperature change, though the currents differ. Proved for voltages not evaluated before (with the old thermal voltage)."
  },
  {
   "property": "C26",
   "status": "partial",
   "theorems": [
    "C26_values",
    "C26_nothing_else",
    "C26_empty",
    "C26_unit_letters_refuted"
   ],
   "note": "REFUTED: letters after the suffix (\"10pF\") raise ValueError. Everything else proved."
  },
  {
   "property": "C27",
   "status": "proved",
   "theorems": [
    "C27_continuation_lines"
   ],
   "note": ""
  },
  {
   "property": "C28",
   "status": "partial",
   "theorems": [
    "C28_expansion_guarded",
    "C28_names_injective_guarded",
    "C28_caller_node_refuted",
    "C28_two_instances_refuted"
   ],
   "note": "REFUTED with '-' in names: a node of the caller, or of another instance, is joined to an internal node. Proved for names without '-', any nesting."
  },
  {
   "property": "C29",
   "status": "partial",
   "theorems": [
    "C29_references_refuted",
    "C29_wrong_source_refuted"
   ],
   "note": "REFUTED: references keep the local name while the elements are renamed, so none is found inside the instance."
  },
  {
   "property": "C30",
   "status": "partial",
   "theorems": [
    "C30_read_back",
    "C30_source_back",
    "C30_diode_back",
    "C30_values_refuted",
    "C30_ic_refuted",
    "C30_diode_off_refuted",
    "C30_mos_refuted",
    "C30_switch_refuted",
    "C30_dc_source_refuted",
    "C30_others_refuted"
   ],
   "note": "Proved for R, C, L without initial condition, K, E, F, G, H, for sources with a time function, for diodes with area and IC. REFUTED otherwise: more than six digits are lost, an initial condition of C or L is not printed, and the lines printed for a DC source, a current source with a time function, an FM source, a diode that is off, a MOS and a switch are rejected by the parser."
  },
  {
   "property": "C31",
   "status": "proved",
   "theorems": [
    "C31_waveform",
    "C31_no_jumps",
    "C31_bounded",
    "C31_periodic",
    "C31_levels"
   ],
   "note": "valid parameters: delay + rise + width + fall fit in the period (C80 for the rest)."
  },
  {
   "property": "C32",
   "status": "proved",
   "theorems": [
    "C32_sin",
    "C32_exp",
    "C32_sffm_am"
   ],
   "note": "exp: td1 <= td2 and positive time constants; it stays between its values if tau1 <= tau2, else within |v2 - v1| of v1."
  },
  {
   "property": "C33",
   "status": "proved",
   "theorems": [
    "C33_interpolates",
    "C33_repeats"
   ],
   "note": "scipy k=1 spline modelled as linear interpolation with linear extension."
  },
  {
   "property": "C34",
   "status": "partial",
   "theorems": [
    "C34_named_unknowns",
    "C34_unknown_rejected",
    "C34_punctuation_refuted"
   ],
   "note": "REFUTED for node names with characters other than letters and digits; the rest proved."
  },
  {
   "property": "C35",
   "status": "partial",
   "theorems": [
    "C35_grounded_refuted",
    "C35_zero_refuted",
    "C35_conditions_hold_guarded"
   ],
   "note": "REFUTED: a grounded terminal reads or overwrites the last unknown, and an IC of 0 is ignored. Proved without grounded terminals."
  },
  {
   "property": "C36",
   "status": "partial",
   "theorems": [
    "C36_op",
    "C36_tran",
    "C36_pss",
    "C36_dc",
    "C36_ac",
    "C36_case_refuted",
    "C36_sweep_refuted"
   ],
   "note": "Proved for OP, transient, PSS, AC and DC lookups when node names and element ids differ by more than case (DC: and the swept source is not called like a node voltage). REFUTED in general: nodes a and A share a result name; sweeping V1 hides the voltage of node 1."
  },
  {
   "property": "C37",
   "status": "proved",
   "theorems": [
    "C37_round_trip",
    "C37_missing_header",
    "C37_old_contents"
   ],
   "note": "Any sequence of blocks, any selection; header names without tab or line break, distinct up to case, the last one ending with a visible character."
  },
  {
   "property": "C38",
   "status": "partial",
   "theorems": [
    "C38_skip_actual",
    "C38_chunks_refuted"
   ],
   "note": "REFUTED: skip counts the header line, so reading on from the returned position repeats a sample; the exact behaviour for all skips is proved."
  },
  {
   "property": "C39",
   "status": "partial",
   "theorems": [
    "C39_actual",
    "C39_one_spelling",
    "C39_refuted"
   ],
   "note": "REFUTED: an update under another spelling is hidden by the older one. The exact law and the law for keys always spelled the same are proved."
  },
  {
   "property": "C40",
   "status": "proved",
   "theorems": [
    "C40_flags",
    "C40_symmetric"
   ],
   "note": "Flags characterised for names distinct up to case; symmetry unconditional."
  },
  {
   "property": "C41",
   "status": "partial",
   "theorems": [
    "C41_power_guarded",
    "C41_H_refuted",
    "C41_G_refuted"
   ],
   "note": "REFUTED with true solutions: an H source shifts the current index of later V/E sources; G sources use their own output voltage. Proved when no V/E follows an H, and G sources sense their own output."
  },
  {
   "property": "C42",
   "status": "partial",
   "theorems": [
    "C42_refuted",
    "C42_place_refuted",
    "C42_actual_place",
    "C42_first_is_kept",
    "C42_right_place",
    "C42_guess_reached"
   ],
   "note": "REFUTED with two nodes without a guess before a node with one: the value goes to another node. Proved otherwise, for every solver that solves its equations; the removal of duplicates: proved in general."
  },
  {
   "property": "C43",
   "status": "partial",
   "theorems": [
    "C43_queue_runs_once",
    "C43_failure",
    "C43_list",
    "C43_history",
    "C43_empty_list_refuted"
   ],
   "note": "REFUTED for an empty list, which runs (and empties) the queue. Proved: order, once each, empty queue, result per type, failed runs, arbitrary histories of queue and run."
  },
  {
   "property": "C44",
   "status": "partial",
   "theorems": [
    "C44_leak_refuted",
    "C44_same_run"
   ],
   "note": "REFUTED across netlists: the stored operating point of an earlier circuit is used. Proved inside one run."
  },
  {
   "property": "C45",
   "status": "proved",
   "theorems": [
    "C45_accepts",
    "C45_rejects",
    "C45_values",
    "C45_tables",
    "C45_positions"
   ],
   "note": ""
  },
  {
   "property": "C46",
   "status": "proved",
   "theorems": [
    "C46_cyclic",
    "C46_residual",
    "C46_fixed_point",
    "C46_linear",
    "C46_four"
   ],
   "note": "The linear solvers are assumed to return the only solution or raise."
  },
  {
   "property": "C47",
   "status": "partial",
   "theorems": [
    "C47_refuted",
    "C47_wrap",
    "C47_length"
   ],
   "note": "REFUTED: the first sample is taken to follow the last one by one step, though both belong to the same phase, so the loop is period + step long; witness with one node and a cosine source."
  },
  {
   "property": "C48",
   "status": "proved",
   "theorems": [
    "C48_residual",
    "C48_zero",
    "C48_newton",
    "C48_linear"
   ],
   "note": "For the code path with sparse matrices (more than 400 unknowns in all samples); for the other one see C118. The linear solver is assumed to return the only solution or raise."
  },
  {
   "property": "C49",
   "status": "partial",
   "theorems": [
    "C49_monotone",
    "C49_gm_derivative_guarded",
    "C49_breakdown_refuted",
    "C49_cut_refuted",
    "C49_stamp"
   ],
   "note": "Monotone: proved for all parameters. Derivative: proved without breakdown, knee, series resistance and below the exponential cut; REFUTED with finite BV (negative gm) and above the cut."
  },
  {
   "property": "C50",
   "status": "partial",
   "theorems": [
    "C50_passive_refuted",
    "C50_passive_up_to_offset",
    "C50_forward"
   ],
   "note": "REFUTED: with the default BV the current at 0 V is IS and v*i<0 for every v<0. Proved up to the offset i(0), and for v>=0."
  },
  {
   "property": "C51",
   "status": "partial",
   "theorems": [
    "C51_symmetric",
    "C51_zero_bias_refuted",
    "C51_zero_bias_on",
    "C51_mirror",
    "C51_gmd_derivative",
    "C51_gmd_cutoff",
    "C51_threshold_jump_refuted"
   ],
   "note": "Symmetry for vds<>0, mirror, gmd (including the ohmic/saturation boundary): proved. REFUTED: a device that is off conducts at vds=0 and its current jumps to zero at the threshold."
  },
  {
   "property": "C52",
   "status": "partial",
   "theorems": [
    "C52_forward",
    "C52_reverse_refuted",
    "C52_reverse_columns_refuted"
   ],
   "note": "REFUTED: T12 is multiplied elementwise on arrays, so entries vanish and columns do not sum to zero."
  },
  {
   "property": "C53",
   "status": "proved",
   "theorems": [
    "C53_thresholds",
    "C53_switches",
    "C53_hold",
    "C53_idempotent",
    "C53_bounds",
    "C53_go",
    "C53_shared",
    "C53_needs_rounding"
   ],
   "note": "VH >= 0. tanh is a parameter. That the switch does change state needs tanh to saturate, as floats do: C53_needs_rounding shows it never would with an exact tanh."
  },
  {
   "property": "C54",
   "status": "proved",
   "theorems": [
    "C54_odd",
    "C54_gm_derivative"
   ],
   "note": ""
  },
  {
   "property": "C55",
   "status": "proved",
   "theorems": [
    "C55_inverse",
    "C55_v_of_q",
    "C55_increasing",
    "C55_unique_current",
    "C55_newton_derivatives",
    "C55_exchange",
    "C55_exchange_conductances",
    "C55_zero_bias"
   ],
   "note": "exchange: for every Newton oracle, different drain and source voltages; equal voltages with an oracle that finds the physical zero."
  },
  {
   "property": "C56",
   "status": "proved",
   "theorems": [
    "C56_power_of_two"
   ],
   "note": ""
  },
  {
   "property": "C57",
   "status": "partial",
   "theorems": [
    "C57_swapped_refuted",
    "C57_from_to",
    "C57_default"
   ],
   "note": "REFUTED: start and stop are swapped. Proved for from and to."
  },
  {
   "property": "C58",
   "status": "proved",
   "theorems": [
    "C58_lookup_by_name",
    "C58_duplicate_check",
    "C58_duplicate_check_case_refuted"
   ],
   "note": "Proved as stated; additionally the duplicate check is shown to be case sensitive, unlike the lookup."
  },
  {
   "property": "C59",
   "status": "partial",
   "theorems": [
    "C59_failed_insertion_refuted",
    "C59_failed_diode_refuted",
    "C59_capacitor_coupling_guarded"
   ],
   "note": "REFUTED for resistors and diodes (nodes are added before validation); proved for capacitors with text node names and couplings."
  },
  {
   "property": "C60",
   "status": "partial",
   "theorems": [
    "C60_refuted",
    "C60_isolated_nodes",
    "C60_no_false_alarm"
   ],
   "note": "REFUTED: two nodes joined by a resistor pass. Proved: what the check decides (nodes where no conducting element ends), and that nodes with a DC path are not reported."
  },
  {
   "property": "C61",
   "status": "proved",
   "theorems": [
    "C61_current_vector",
    "C61_jacobian_is_derivative"
   ],
   "note": ""
  },
  {
   "property": "C62",
   "status": "partial",
   "theorems": [
    "C62_poles",
    "C62_all",
    "C62_refuted"
   ],
   "note": "REFUTED: inductor couplings are not seen by the poles; witness with two coupled inductors. Proved in full without couplings (and, after a restart, with options.cmin not positive: cmin is in D but in no element). numpy inv, det and eigvals are assumed right."
  },
  {
   "property": "C63",
   "status": "partial",
   "theorems": [
    "C63_agree",
    "C63_number_refuted",
    "C63_vccs_refuted",
    "C63_coupling_refuted",
    "C63_time_refuted",
    "C63_refuses"
   ],
   "note": "Proved for symbolic elements and for the others except those refuted. REFUTED: a VCCS or an inductor in AC that is not symbolic raises AttributeError (elem.value, elem.L do not exist), a coupling that is not symbolic enters with K instead of M, a time-dependent source enters the symbolic vector with its DC value."
  },
  {
   "property": "C64",
   "status": "proved",
   "theorems": [
    "C64_gmin_adds_node_conductances"
   ],
   "note": ""
  },
  {
   "property": "C65",
   "status": "partial",
   "theorems": [
    "C65_shorted_source_refuted"
   ],
   "note": "REFUTED: the second assignment overwrites the first, so -I remains in the balance."
  },
  {
   "property": "C66",
   "status": "partial",
   "theorems": [
    "C66_vcvs_feedback_refuted",
    "C04_branch_rows"
   ],
   "note": "REFUTED for a follower; proved when sense and output nodes coincide at ground only (C04)."
  },
  {
   "property": "C67",
   "status": "proved",
   "theorems": [
    "C67_time_dependent_sources"
   ],
   "note": ""
  },
  {
   "property": "C68",
   "status": "proved",
   "theorems": [
    "C68_linear_op_physical"
   ],
   "note": ""
  },
  {
   "property": "C69",
   "status": "partial",
   "theorems": [
    "C69_linear_exact_refuted",
    "C69_linear_exact_guarded"
   ],
   "note": "REFUTED with nr_damp_first_iters; proved with that option off and no locked ports (a linear circuit has none)."
  },
  {
   "property": "C70",
   "status": "partial",
   "theorems": [
    "C70_grounded_port_refuted",
    "C70_small_moves_undamped_guarded"
   ],
   "note": "REFUTED for a port with both terminals at ground (dx[-1] is read)."
  },
  {
   "property": "C71",
   "status": "partial",
   "theorems": [
    "C71_nothing_solved_refuted",
    "C71_no_skip_guarded",
    "C71_no_skip_all_or_nothing"
   ],
   "note": "REFUTED: with skipping allowed UnboundLocalError is raised and the source is left changed."
  },
  {
   "property": "C72",
   "status": "partial",
   "theorems": [
    "C72_error_is_residual_refuted"
   ],
   "note": "REFUTED: the error is that of the point before the last update."
  },
  {
   "property": "C73",
   "status": "partial",
   "theorems": [
    "C73_estimate_trapezoidal",
    "C73_estimate_gear",
    "C73_estimate_implicit_euler_refuted"
   ],
   "note": "REFUTED for implicit Euler because of its coefficient (C18); proved for the others."
  },
  {
   "property": "C74",
   "status": "proved",
   "theorems": [
    "C74_gear_leading_coefficient"
   ],
   "note": ""
  },
  {
   "property": "C75",
   "status": "proved",
   "theorems": [
    "C75_step_control_terminates"
   ],
   "note": ""
  },
  {
   "property": "C76",
   "status": "partial",
   "theorems": [
    "C76_fixed_step_refuted",
    "C76_empty_interval_refuted"
   ],
   "note": "REFUTED: max(0, None) is a TypeError in Python 3 for implicit Euler and Gear; tstart = tstop leaves a flag undefined."
  },
  {
   "property": "C77",
   "status": "proved",
   "theorems": [
    "C77_history_available"
   ],
   "note": ""
  },
  {
   "property": "C78",
   "status": "proved",
   "theorems": [
    "C78_points_solve_circuit"
   ],
   "note": ""
  },
  {
   "property": "C79",
   "status": "partial",
   "theorems": [
    "C79_full_cache_refuted"
   ],
   "note": "REFUTED: popitem discards the newest entry, which is the result just computed: once full, nothing new is cached."
  },
  {
   "property": "C80",
   "status": "partial",
   "theorems": [
    "C80_delay_refuted",
    "C80_delay_guarded"
   ],
   "note": "REFUTED: the time is reduced to the period before the delay is applied; with a delay of a period or more there is never a pulse. Proved if delay and pulse fit in one period."
  },
  {
   "property": "C81",
   "status": "partial",
   "theorems": [
    "C81_am_refuted",
    "C81_sffm_refuted",
    "C81_others"
   ],
   "note": "REFUTED for am without td (TypeError at every time) and sffm without fc (after the delay). All other optional parameters: proved to default to a number."
  },
  {
   "property": "C82",
   "status": "partial",
   "theorems": [
    "C82_extrapolates_refuted"
   ],
   "note": "REFUTED: the first and last segments are extended."
  },
  {
   "property": "C83",
   "status": "partial",
   "theorems": [
    "C83_eof_refuted"
   ],
   "note": "REFUTED: asking for more samples than there are reads all of them and reports EOF=False, for every file."
  },
  {
   "property": "C84",
   "status": "partial",
   "theorems": [
    "C84_with_zeros",
    "C84_no_zeros_refuted"
   ],
   "note": "REFUTED without zeros (AttributeError for every name); proved with at least one zero."
  },
  {
   "property": "C85",
   "status": "partial",
   "theorems": [
    "C85_round_trip",
    "C85_degrees_refuted"
   ],
   "note": "Proved for phases in radians (the default). REFUTED with options.ac_phase_in_deg."
  },
  {
   "property": "C86",
   "status": "partial",
   "theorems": [
    "C86_actual",
    "C86_von_refuted",
    "C86_negative_window_refuted",
    "C86_one_refuted",
    "C86_vt_vh"
   ],
   "note": "REFUTED: VH is (VON+VOFF)/2000, so the switch goes on below VON and off above VOFF, and the hysteresis is negative for a negative sum; one value alone is a TypeError. VT and VH are taken as given."
  },
  {
   "property": "C87",
   "status": "partial",
   "theorems": [
    "C87_actual",
    "C87_vout_refuted"
   ],
   "note": "REFUTED: gm is the derivative at an output voltage of 1 V (plus gmin) whatever the output voltage is."
  },
  {
   "property": "C88",
   "status": "partial",
   "theorems": [
    "C88_series_actual",
    "C88_area_refuted",
    "C88_unit_area"
   ],
   "note": "REFUTED for AREA<>1; proved for AREA=1."
  },
  {
   "property": "C89",
   "status": "partial",
   "theorems": [
    "C89_pollution_refuted",
    "C89_parameters_kept",
    "C89_no_series"
   ],
   "note": "REFUTED with RS<>0: Newton leaves conductances without RS in the cache. Proved for a clean cache at a fixed temperature."
  },
  {
   "property": "C90",
   "status": "partial",
   "theorems": [
    "C90_gm_ohmic",
    "C90_gm_saturation",
    "C90_gm_refuted",
    "C90_gmb_p_refuted",
    "C90_gmb_saturation_refuted"
   ],
   "note": "REFUTED in saturation with LAMBDA>0 (gm), for p devices and in saturation (gmb). gm in the ohmic region proved."
  },
  {
   "property": "C91",
   "status": "partial",
   "theorems": [
    "C91_mirror",
    "C91_gmg_refuted"
   ],
   "note": "Current, gms and gmd: proved. REFUTED for gmg: the slope factor is computed from the gate voltage with the wrong sign."
  },
  {
   "property": "C92",
   "status": "partial",
   "theorems": [
    "C92_spurious_refuted",
    "C92_positive"
   ],
   "note": "REFUTED for every negative voltage: x=v is a second zero. Proved for positive voltages."
  },
  {
   "property": "C93",
   "status": "partial",
   "theorems": [
    "C93_path_independent",
    "C93_RS_refuted",
    "C93_VT_refuted"
   ],
   "note": "IS and BV proved. REFUTED for RS (path dependent) and VT (never updated)."
  },
  {
   "property": "C94",
   "status": "partial",
   "theorems": [
    "C94_gstamp",
    "C94_istamp_distinct",
    "C94_istamp_shared_refuted"
   ],
   "note": "Jacobian stamps and current stamps with different nodes: proved. REFUTED for both current terminals on one node: the second write wins."
  },
  {
   "property": "C95",
   "status": "partial",
   "theorems": [
    "C95_grounded_refuted",
    "C95_grounded_channel_refuted",
    "C95_otherwise"
   ],
   "note": "REFUTED: ValueError (unpacking the empty index tuple). Proved that nothing else fails."
  },
  {
   "property": "C96",
   "status": "partial",
   "theorems": [
    "C96_p_report_refuted",
    "C96_n_report",
    "C96_saturation",
    "C96_linear_refuted"
   ],
   "note": "REFUTED for p devices: always reported off at negative vgs. Proved for n devices with vds>=0; the region too, except that with LAMBDA > 0 devices just below the overdrive are reported linear though computed as saturated (C96_linear_refuted)."
  },
  {
   "property": "C97",
   "status": "partial",
   "theorems": [
    "C97_zero_threshold_refuted",
    "C97_otherwise"
   ],
   "note": "REFUTED: ZeroDivisionError for a threshold of zero in cutoff. Proved in all other cases."
  },
  {
   "property": "C98",
   "status": "partial",
   "theorems": [
    "C98_passive_guarded",
    "C98_barrier_refuted"
   ],
   "note": "REFUTED at a voltage equal to the barrier. Proved where the tunnelling exponent is at least 2."
  },
  {
   "property": "C99",
   "status": "proved",
   "theorems": [
    "C99_lower_bound",
    "C99_slope",
    "C99_continuous"
   ],
   "note": "the 1e-12 added under the root of nv is left out of the slope factor."
  }
 ]
}