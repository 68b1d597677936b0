{"id": "C01", "title": "Node table is a bijection for every registration history", "statement": "After any sequence of add_node / create_node / new_internal_node calls on an empty circuit (failed calls included), every registered external name has exactly one internal integer and every registered integer exactly one name, the two lookups are inverse of each other, '0' is the only name mapped to 0, and the integers in use form the contiguous block starting at 1 (plus 0 iff ground is present). Re-adding a known name returns the integer it already had and changes nothing.", "quantifier": "every finite sequence of registration calls with arbitrary names", "why_tests_cant": "the id of a new node is computed from the size of the whole dictionary, so correctness depends on the entire history, including whether and when ground was registered", "anchors": ["ahkab/circuit.py:Circuit.add_node", "ahkab/circuit.py:Circuit.create_node", "ahkab/circuit.py:Circuit.new_internal_node", "ahkab/circuit.py:Circuit.get_nodes_number", "ahkab/circuit.py:Circuit.ext_node_to_int", "ahkab/circuit.py:Circuit.int_node_to_ext"]}
{"id": "C02", "title": "Node handles stay distinct after element removal", "statement": "After any history of adding and removing elements, two different node names never denote the same internal node, and every node used by a remaining element is still registered.", "quantifier": "every sequence of add/remove operations", "why_tests_cant": "aliasing appears only for particular add/remove interleavings; the repo has tests for single removals only", "anchors": ["ahkab/circuit.py:Circuit.remove_elem", "ahkab/circuit.py:Circuit.add_node"]}
{"id": "C03", "title": "MNA node rows are Kirchhoff's current law", "statement": "For every circuit made of R, C, L, V, I, E, F, G and H elements (voltage-defined ones connected between distinct nodes, see C65) and every vector x of node voltages and branch currents, the row of MNA*x + N belonging to a node equals the algebraic sum of the DC currents leaving that node through all the elements attached to it; a current-type element whose two terminals coincide contributes nothing.", "quantifier": "all element lists, all node assignments, all real element values, all candidate vectors x", "why_tests_cant": "stamps are accumulated over an arbitrary element list and overlapping terminals; tests only check a few solved circuits", "anchors": ["ahkab/dc_analysis.py:generate_mna_and_N"]}
{"id": "C04", "title": "Each voltage-defined element gets its own branch equation", "statement": "For every circuit, the k-th voltage-defined element (V, E, L, and H) in circuit order owns row/column n_nodes+k; that row states V(n1)-V(n2)=Vdc for a V source, V(n1)-V(n2)=alpha*(V(sn1)-V(sn2)) for an E source whose sense nodes are not its own output nodes (see C66), V(n1)-V(n2)=0 for an inductor at DC; element lookups by name (find_vde_index) return the same k, and the assembly succeeds whenever every sensed source exists and comes early enough.", "quantifier": "all element lists with distinct names, all candidate vectors", "why_tests_cant": "row ownership depends on the number and order of all preceding voltage-defined elements", "anchors": ["ahkab/dc_analysis.py:generate_mna_and_N", "ahkab/circuit.py:Circuit.find_vde_index", "ahkab/circuit.py:is_elem_voltage_defined"]}
{"id": "C05", "title": "Solving the reduced system solves the whole circuit", "statement": "With the ground row and column removed, a vector solves the reduced MNA system iff it satisfies KCL at every node including ground and every branch equation: the ground KCL equation is implied by the others, so removing it loses nothing.", "quantifier": "all linear circuits and all vectors", "why_tests_cant": "an algebraic identity over all stamps", "anchors": ["ahkab/dc_analysis.py:generate_mna_and_N", "ahkab/utilities.py:remove_row_and_col"]}
{"id": "C06", "title": "Current-controlled voltage source obeys its documented law", "statement": "For a CCVS (H) element V(n1)-V(n2) = alpha * I(source) in every solution of the assembled system.", "quantifier": "all circuits containing H elements", "why_tests_cant": "the sign convention is only visible against the documentation; existing test uses a golden file", "anchors": ["ahkab/dc_analysis.py:generate_mna_and_N", "ahkab/components/sources/HVSource.py:HVSource"]}
{"id": "C07", "title": "Dynamic matrix carries exactly the capacitor, inductor and mutual inductor laws", "statement": "For every circuit, row n of D*xdot is the sum of C*d(vn1-vn2)/dt of the capacitors leaving n, the branch row of an inductor is -L*dI/dt - sum of M*dIother/dt over its couplings, all the other entries are zero; the AC matrix built by the AC analysis is the same matrix; the D matrix is symmetric.", "quantifier": "all circuits with arbitrarily many coupled inductors", "why_tests_cant": "duplicated code in two modules over all element lists", "anchors": ["ahkab/transient.py:generate_D", "ahkab/ac.py:_generate_AC", "ahkab/components/Inductor.py:InductorCoupling"]}
{"id": "C08", "title": "DC solver terminates with a bounded schedule", "statement": "Whatever the Newton solver answers at each call (converge, fail, singular), the DC solver performs at most 22 Newton solves (one standard, ten gmin steps, ten source steps, and one repetition of the last failed step, because the check for further methods precedes the marking of the failed one) and then returns; it reports failure only after every enabled method failed. This needs a gmin of at most exp(-10) or so, otherwise the list of gmin steps is too short and an IndexError results.", "quantifier": "every sequence of solver outcomes and every option setting with at least one method enabled", "why_tests_cant": "the schedule is a state machine over arbitrary outcome histories", "anchors": ["ahkab/dc_analysis.py:dc_solve", "ahkab/dc_analysis.py:set_next_solve_method", "ahkab/dc_analysis.py:more_solve_methods_available", "ahkab/dc_analysis.py:get_solve_methods"]}
{"id": "C09", "title": "A DC solution reported as converged solves the requested equations", "statement": "If the DC solver reports convergence, the last Newton solve was run with the full source values and with the gmin conductances the caller asked for.", "quantifier": "every sequence of solver outcomes", "why_tests_cant": "only reachable when homotopy methods kick in", "anchors": ["ahkab/dc_analysis.py:dc_solve", "ahkab/dc_analysis.py:set_next_solve_method"]}
{"id": "C10", "title": "Newton damping keeps every locked port within its limit", "statement": "The damping factor is always in (0,1], and the damped update moves the voltage across every locked port by no more than lock_factor*Vth; with locking disabled (and outside of the initial damping) the factor is 1; the result does not depend on the order of the locked ports.", "quantifier": "all update vectors and all lists of locked ports", "why_tests_cant": "quantifies over all real vectors and port lists", "anchors": ["ahkab/dc_analysis.py:get_td"]}
{"id": "C100", "title": ".FFT uses 1024 points by default", "statement": "A .FFT directive without np= and a call of spicefft without np both use 1024 points.", "quantifier": "all directives", "why_tests_cant": "the default lives in a table far from its use", "anchors": ["ahkab/fourier.py:specs", "ahkab/fourier.py:spicefft"]}
{"id": "C101", "title": ".PSS accepts a step instead of the number of points", "statement": "A .PSS directive with period and step and no points is accepted.", "quantifier": "all token lists without points=", "why_tests_cant": "all token orders", "anchors": ["ahkab/pss.py:specs", "ahkab/netlist_parser.py:parse_single_analysis"]}
{"id": "C102", "title": "Malformed numbers in directives are reported", "statement": "A numeric directive parameter whose text is not a number is reported as a parse error.", "quantifier": "all strings", "why_tests_cant": "all strings", "anchors": ["ahkab/netlist_parser.py:convert", "ahkab/netlist_parser.py:parse_single_analysis"]}
{"id": "C103", "title": "A named .ic set keeps its name", "statement": "The name given in an .ic directive, whatever it looks like, is the text by which the set is found later.", "quantifier": "all names", "why_tests_cant": "all strings", "anchors": ["ahkab/netlist_parser.py:parse_ic_directive"]}
{"id": "C104", "title": "The FFT analysis returns", "statement": "spicefft returns a spectrum for every valid start, stop and number of points.", "quantifier": "all arguments", "why_tests_cant": "depends on the version of numpy", "anchors": ["ahkab/fourier.py:spicefft"]}
{"id": "C105", "title": "spicefft with a fundamental returns its harmonics", "statement": "With freq=f the returned frequencies are the multiples of f.", "quantifier": "all f, all intervals with at least one period", "why_tests_cant": "all frequencies and intervals", "anchors": ["ahkab/fourier.py:spicefft"]}
{"id": "C106", "title": "Spectral lines of the plain FFT", "statement": "Without freq, the lines are at the multiples of 1/(stop-start) below np/2 of them, and fmin/fmax keep the DC line and exactly the lines between them.", "quantifier": "all intervals, sizes and limits", "why_tests_cant": "all real limits", "anchors": ["ahkab/fourier.py:spicefft"]}
{"id": "C107", "title": "Each port gets its own DC guess", "statement": "In the initial guess every port of a nonlinear element is given the guess the element states for that port, whatever the other ports are connected to.", "quantifier": "all elements and wirings", "why_tests_cant": "shows up only with particular ports shorted", "anchors": ["ahkab/dc_guess.py:get_dc_guess"]}
{"id": "C108", "title": "Circuits with initial conditions on diodes have a guess", "statement": "Building the DC guess succeeds for circuits with diodes or tunnel junctions that were given an initial condition (ic).", "quantifier": "all circuits", "why_tests_cant": "needs the type of dc_guess to be followed across files", "anchors": ["ahkab/dc_guess.py:get_dc_guess", "ahkab/diode.py:diode.__init__", "ahkab/components/TunnelJunction.py:TunnelJunction.__init__"]}
{"id": "C109", "title": "The .TEMP directive is accepted", "statement": "A netlist may set the simulation temperature with the documented directive \".TEMP <VALUE>\".", "quantifier": "all arguments of the directive", "why_tests_cant": "every possible argument", "anchors": ["ahkab/netlist_parser.py:parse_single_analysis", "ahkab/netlist_parser.py:parse_temp_directive", "ahkab/ahkab.py:set_temperature"]}
{"id": "C11", "title": "Convergence check is an exact componentwise tolerance test", "statement": "The convergence check answers True iff for every voltage unknown |dx| <= vea + ver*|x+dx| and |residual| <= iea, and for every current unknown |dx| <= iea + ier*|x+dx| and |residual| <= vea; it is monotone in the tolerances and vacuously true on empty groups.", "quantifier": "all vectors of all lengths, all splits in voltages and currents", "why_tests_cant": "unbounded lengths and real values", "anchors": ["ahkab/utilities.py:convergence_check", "ahkab/utilities.py:custom_convergence_check"]}
{"id": "C110", "title": "A default transient analysis starts from the operating point", "statement": "A transient analysis whose starting point was left at its default (x0 \"op\" in new_tran; None in transient_analysis, documented as \"will be set to the OP\") starts from an operating point, or the missing operating point is reported.", "quantifier": "all circuits and analysis lists", "why_tests_cant": "needs the text defaults to be followed through run into the analysis", "anchors": ["ahkab/ahkab.py:new_tran", "ahkab/ahkab.py:run", "ahkab/ahkab.py:_handle_netlist_ics", "ahkab/transient.py:transient_analysis"]}
{"id": "C111", "title": "The element inserted is the one described", "statement": "A successful add_* call appends one element with the given name, value and terminals connected, in order, to the nodes with the given names; every other element and every known node stays as it was; the call succeeds unless the value is zero (R, C), the model is unknown or the inductors of a coupling are missing or the same.", "quantifier": "all circuits and all add_* calls", "why_tests_cant": "terminals and nodes for arbitrary earlier edits", "anchors": ["ahkab/circuit.py:Circuit.add_resistor", "ahkab/circuit.py:Circuit.add_capacitor", "ahkab/circuit.py:Circuit.add_vsource", "ahkab/circuit.py:Circuit.add_isource", "ahkab/circuit.py:Circuit.add_vcvs", "ahkab/circuit.py:Circuit.add_vccs", "ahkab/circuit.py:Circuit.add_diode", "ahkab/circuit.py:Circuit.add_inductor_coupling"]}
{"id": "C112", "title": "Removing an element takes out that element only", "statement": "remove_elem removes the first element with the given name (up to case), keeps all others in order and raises ValueError without effect if there is none; ground stays registered as node 0 over every history of edits.", "quantifier": "all circuits, names and histories", "why_tests_cant": "unbounded histories", "anchors": ["ahkab/circuit.py:Circuit.remove_elem"]}
{"id": "C113", "title": "Every netlist line reaches the group it belongs to", "statement": "Reading a netlist, with the files it includes and up to .END, yields the first line as the title, and, in order and without loss or addition, the element lines of the main circuit, each subcircuit with its declaration and element lines, the models, the post-processing directives and the other directives. A subcircuit inside another, a stray .ENDS and a missing .ENDS raise NetlistParseError.", "quantifier": "all netlists and all sets of included files", "why_tests_cant": "unbounded line sequences and include trees", "anchors": ["ahkab/netlist_parser.py:parse_circuit", "ahkab/netlist_parser.py:join_lines", "ahkab/netlist_parser.py:get_next_file_and_close_current"]}
{"id": "C114", "title": "Line numbers of a netlist", "statement": "The number kept with a line (and printed in error messages) is that of the line in its file.", "quantifier": "all netlists", "why_tests_cant": "any layout", "anchors": ["ahkab/netlist_parser.py:parse_circuit", "ahkab/netlist_parser.py:join_lines"]}
{"id": "C115", "title": ".INCLUDE opens the file it names", "statement": "\".include path\" reads the file of that name, taken relative to the directory of the main netlist if it is not absolute.", "quantifier": "all paths and file systems", "why_tests_cant": "any file name", "anchors": ["ahkab/netlist_parser.py:parse_include_directive", "ahkab/netlist_parser.py:parse_circuit"]}
{"id": "C116", "title": "A netlist on the standard input is read like a file", "statement": "The same netlist gives the same groups of lines from the standard input and from a file.", "quantifier": "all netlists", "why_tests_cant": "any layout", "anchors": ["ahkab/netlist_parser.py:parse_circuit", "ahkab/ahkab.py:main"]}
{"id": "C117", "title": "Parsed analyses fit the functions that run them", "statement": "The description made from an accepted analysis directive names a known analysis, holds every argument which its function requires and none which it does not have.", "quantifier": "all accepted directives", "why_tests_cant": "every combination of parameters", "anchors": ["ahkab/netlist_parser.py:parse_single_analysis", "ahkab/ahkab.py:run"]}
{"id": "C118", "title": "Brute-force PSS works on small circuits", "statement": "The brute-force periodic steady state analysis returns a solution (or None if it does not converge) whatever the number of unknowns.", "quantifier": "all circuits and numbers of points", "why_tests_cant": "the default settings with few unknowns; all matrices", "anchors": ["ahkab/bfpss.py:bfpss", "ahkab/bfpss.py:_convergence_check"]}
{"id": "C119", "title": "Zeros are where the transfer from input to output vanishes", "statement": "With an input source and an output port, the zeros reported are exactly the complex numbers z, below options.pz_max in modulus, for which some input a*exp(2*pi*z*t) on the source and some solution x*exp(2*pi*z*t), not both null, have a null output.", "quantifier": "all linear circuits with at least one capacitor or inductor and without coupled inductors, all sources and output ports, calls that end at a shift below 1e12 (or give some zero)", "why_tests_cant": "generalised eigenvalue identity over all matrices", "anchors": ["ahkab/pz.py:calculate_singularities"]}
{"id": "C12", "title": "Newton iteration accounting", "statement": "The Newton loop stops after at most MAXIT iterations; when it reports convergence the last increment satisfied the convergence test; on a linear circuit it performs exactly one iteration, and with damping factor one the result satisfies the linear system exactly.", "quantifier": "all linear-solver answers and nonlinear functions", "why_tests_cant": "unbounded iteration counts and arbitrary increments", "anchors": ["ahkab/dc_analysis.py:mdn_solver"]}
{"id": "C120", "title": "The pole-zero analysis ends", "statement": "calculate_singularities returns a solution or raises for a singular matrix: the restarts with another shift end.", "quantifier": "all linear circuits, all random numbers", "why_tests_cant": "unbounded recursion with random shifts", "anchors": ["ahkab/pz.py:calculate_singularities"]}
{"id": "C121", "title": "Poles and zeros can be read back", "statement": "Each pole and zero found is returned when the solution is subscripted with its name; calculate_poles returns a solution with the poles.", "quantifier": "all lists of poles and zeros", "why_tests_cant": "all results, including those without zeros", "anchors": ["ahkab/results.py:pz_solution.__getitem__", "ahkab/pz.py:calculate_poles"]}
{"id": "C122", "title": "Poles and zeros are in the unit stated", "statement": "The number stored for a pole or zero is a natural frequency (or zero) in the unit given by the units attribute of the solution.", "quantifier": "all solutions", "why_tests_cant": "needs the natural frequencies of the circuit", "anchors": ["ahkab/results.py:pz_solution.__init__", "ahkab/pz.py:calculate_singularities"]}
{"id": "C123", "title": "The iterations reported are those of all Newton runs", "statement": "The number of iterations returned by dc_solve is the sum of the iterations of all the Newton runs it made, those which did not converge included.", "quantifier": "all sequences of Newton outcomes and options", "why_tests_cant": "unbounded sequences of failures", "anchors": ["ahkab/dc_analysis.py:dc_solve"]}
{"id": "C124", "title": "Substitutions replace the symbol of the named element", "statement": "subs={X: Y} gives the element X the symbol of Y and leaves the symbols of the other elements alone.", "quantifier": "all dictionaries with distinct keys, all elements, any case of the letters", "why_tests_cant": "unbounded dictionaries, names and assumptions of symbols", "anchors": ["ahkab/symbolic.py:_parse_substitutions", "ahkab/symbolic.py:generate_mna_and_N", "ahkab/symbolic.py:_symbol_factory"]}
{"id": "C125", "title": "Formulating with conductances gives the same system", "statement": "With options.symb_formulate_with_gs, after the conductances are replaced back by the resistances, the system is the one obtained without the option.", "quantifier": "all circuits, all values of the symbols", "why_tests_cant": "symbols are built from the ids of all resistors of any circuit", "anchors": ["ahkab/symbolic.py:generate_mna_and_N", "ahkab/circuit.py:Circuit.add_resistor"]}
{"id": "C126", "title": "A comment at the end of a line changes nothing", "statement": "Appending \" *\" and any text to an element line that the parser accepts does not change the element it yields.", "quantifier": "all element lines, all texts", "why_tests_cant": "comments of arbitrary text after every kind of line", "anchors": ["ahkab/netlist_parser.py:main_netlist_parser", "ahkab/netlist_parser.py:parse_elem_capacitor", "ahkab/netlist_parser.py:parse_elem_inductor", "ahkab/netlist_parser.py:parse_elem_inductor_coupling", "ahkab/netlist_parser.py:parse_elem_vsource", "ahkab/netlist_parser.py:parse_elem_isource"]}
{"id": "C127", "title": "Optional parameters of time functions can be left out", "statement": "On the line of a voltage or current source the optional trailing parameters of the time function (pulse, exp, sin, sffm, am) can be omitted, and the source is the one with their defaults.", "quantifier": "both kinds of sources, all functions, all parameter lists the function accepts", "why_tests_cant": "combinatorially many parameter lists", "anchors": ["ahkab/netlist_parser.py:parse_elem_vsource", "ahkab/netlist_parser.py:parse_elem_isource", "ahkab/netlist_parser.py:parse_time_function"]}
{"id": "C128", "title": "Options of a diode line take effect", "statement": "The options AREA, T, IC and OFF of a diode line are accepted in any order and reach the element.", "quantifier": "all models and option values, any order", "why_tests_cant": "any order and combination of options", "anchors": ["ahkab/netlist_parser.py:parse_elem_diode"]}
{"id": "C129", "title": "A line stands for the element it describes", "statement": "A line written in the documented syntax for its first letter yields exactly one element with the name, nodes, model, references and values written in it, whatever came before; an accepted line of any kind yields an element of the kind of its letter whose name, nodes, reference and model are the first words of the line, the model being a known one of the right kind; for resistors, controlled sources and switches no other line than the documented is accepted, apart from a trailing comment.", "quantifier": "all lines, all models, all preceding elements", "why_tests_cant": "unbounded set of lines, in both directions", "anchors": ["ahkab/netlist_parser.py:main_netlist_parser", "ahkab/netlist_parser.py:parse_elem_resistor", "ahkab/netlist_parser.py:parse_elem_capacitor", "ahkab/netlist_parser.py:parse_elem_inductor", "ahkab/netlist_parser.py:parse_elem_vsource", "ahkab/netlist_parser.py:parse_elem_isource", "ahkab/netlist_parser.py:parse_elem_mos", "ahkab/netlist_parser.py:parse_elem_vcvs", "ahkab/netlist_parser.py:parse_elem_vccs", "ahkab/netlist_parser.py:parse_elem_cccs", "ahkab/netlist_parser.py:parse_elem_ccvs", "ahkab/netlist_parser.py:parse_elem_switch"]}
{"id": "C13", "title": "DC sweep leaves the swept source unchanged and pairs each value with its own solution", "statement": "After a DC sweep returns, the swept source has its original DC value, whatever happened at each point; every stored row pairs the sweep value with the operating point computed with the source set to precisely that value, in sweep order.", "quantifier": "every sweep length and every pattern of solved/failed points", "why_tests_cant": "depends on the history of failures", "anchors": ["ahkab/dc_analysis.py:dc_analysis"]}
{"id": "C130", "title": "The order of the element lines does not matter", "statement": "Permuting the element lines of a netlist permutes the elements of the circuit and changes nothing else; an inductor coupling refers to the two inductors it names.", "quantifier": "all netlists, all permutations", "why_tests_cant": "permutations of netlists of any length", "anchors": ["ahkab/netlist_parser.py:main_netlist_parser", "ahkab/netlist_parser.py:parse_elem_inductor_coupling"]}
{"id": "C131", "title": "A malformed line is reported as a parse error", "statement": "An element line that cannot be understood raises NetlistParseError.", "quantifier": "all lines that yield no element", "why_tests_cant": "unbounded set of malformed lines", "anchors": ["ahkab/netlist_parser.py:main_netlist_parser", "ahkab/netlist_parser.py:convert_units"]}
{"id": "C132", "title": "Step control keeps the error within the tolerances", "statement": "With step control on, a point is stored only if the estimate of the truncation error of every component, weighed with the acceptance threshold, is within the absolute plus relative tolerance of that component (vea, ver for voltages, iea, ier for currents), and the next step is such that the error, scaled with the order of the method, stays within it.", "quantifier": "all option values, methods, histories of points, solvers", "why_tests_cant": "the accepted points depend on arbitrary histories and on the solver", "anchors": ["ahkab/transient.py:transient_analysis"]}
{"id": "C133", "title": "Every AC point solves the linearised circuit at its frequency", "statement": "When ac_analysis returns a result, it has one point per frequency of the sweep, in order, and each point satisfies, as complex numbers, Kirchhoff current law at every node and the branch law of every voltage-defined element of the circuit linearised at the operating point: capacitors carry j w C v, inductors have j w (L i + sum of M i), nonlinear elements carry their derivatives at the linearisation point, the sources have exactly their AC values; the only additions are gmin and cmin from each node to ground.", "quantifier": "all circuits, linearisation points, phasors, sweeps; all linear solvers that answer correctly", "why_tests_cant": "quantifies over all circuits and frequencies; the driver may silently switch to a different system", "anchors": ["ahkab/ac.py:ac_analysis", "ahkab/ac.py:_generate_Nac", "ahkab/ac.py:_generate_J", "ahkab/ac.py:_generate_AC"]}
{"id": "C134", "title": "AC results obey superposition", "statement": "If the AC values of the sources are a combination with complex coefficients of those of two other runs on the same circuit, linearised at the same point, then at every common frequency the result is the same combination of the two results. In particular the result at a frequency does not depend on the sweep it is part of.", "quantifier": "all circuits, phasors, complex coefficients, sweeps", "why_tests_cant": "relates three runs over infinitely many circuits and excitations", "anchors": ["ahkab/ac.py:ac_analysis", "ahkab/ac.py:_generate_Nac"]}
{"id": "C135", "title": "The AC sweep has the requested frequencies", "statement": "ac_analysis computes points frequencies from start to stop, equally spaced or in a geometric progression as sweep_type says (case does not matter, logarithmic if not given); start = 0, start > stop, fewer than 2 points on a nonempty interval and unknown types raise ValueError.", "quantifier": "all start, stop, points, sweep types", "why_tests_cant": "all numbers of points and all intervals", "anchors": ["ahkab/ac.py:ac_analysis"]}
{"id": "C136", "title": "Complementary MOS models are mirror images", "statement": "An ekv or mosq model of type p, made with the parameters of an n model with the signs of VTO, VFB and TCV reversed (or left to their defaults in both), has the mirror image of its current: I_p(-vd,-vg,-vs) = -I_n(vd,vg,vs).", "quantifier": "all parameters, temperatures, biases, devices", "why_tests_cant": "the constructors combine about fifteen optional parameters and two polarities; the mirror image is a statement about all of them and all biases", "anchors": ["ahkab/ekv.py:369-442", "ahkab/mosq.py:431-505"]}
{"id": "C137", "title": "MOS parameters are a function of the temperature", "statement": "A MOS model made at its nominal temperature has the parameters it was given; after any sequence of set_device_temperature calls its VTO, KP and PHI are those of the temperature set last, VTO(T) = VTO - TCV (T - TNOM), KP(T) = KP (T/TNOM)^BEX and the documented PHI(T).", "quantifier": "all models, sequences of temperatures", "why_tests_cant": "the dependence on the history shows only for sequences of two or more changes", "anchors": ["ahkab/ekv.py:444-455", "ahkab/mosq.py:515-531"]}
{"id": "C138", "title": "The simulation temperature applies to the MOS devices", "statement": "After set_temperature(T) the MOS models are at T, and the thermal voltage of the EKV equations is kT/q of the device.", "quantifier": "all sessions of model definitions and temperature settings", "why_tests_cant": "interleavings of set_temperature and model definitions are unbounded", "anchors": ["ahkab/ahkab.py:798-803", "ahkab/ekv.py:433,512-522", "ahkab/mosq.py:501"]}
{"id": "C139", "title": "Physical parameters of a MOS model are derived as documented", "statement": "Parameters not given follow from those that are: COX = eps_ox/TOX, KP = U0 COX, PHI = 2 Vt ln(NSUB/ni), GAMMA = sqrt(2 q eps_si NSUB)/COX, VTO = VFB + PHI + GAMMA sqrt(PHI). A model that can be made can be evaluated at every gate voltage, also after a change of temperature.", "quantifier": "all parameters", "why_tests_cant": "combinations of given and missing parameters with real values", "anchors": ["ahkab/ekv.py:385-442,796-807", "ahkab/mosq.py:447-505"]}
{"id": "C14", "title": "DC sweep never leaves the requested interval", "statement": "A linear DC sweep visits only values between start and stop.", "quantifier": "all start, stop, step", "why_tests_cant": "fails only when step does not divide the interval", "anchors": ["ahkab/dc_analysis.py:dc_analysis", "ahkab/utilities.py:lin_axis_iterator"]}
{"id": "C140", "title": "The type of a MOS model is what was asked for", "statement": "TYPE n (N) makes an n-channel model, p (P) a p-channel model, anything else is rejected; ekv and mosq agree.", "quantifier": "all strings", "why_tests_cant": "all strings", "anchors": ["ahkab/ekv.py:379", "ahkab/mosq.py:440-445"]}
{"id": "C141", "title": "A MOS device with multiplier M is M devices in parallel", "statement": "Current and conductances of a device with multiplier M are M times those of the device with multiplier 1.", "quantifier": "all devices, biases, multipliers", "why_tests_cant": "the conductances enter Newton, AC and PZ analyses; the claim is over all biases", "anchors": ["ahkab/ekv.py:547-701", "ahkab/mosq.py:597-801"]}
{"id": "C142", "title": "A .model line makes the model it describes", "statement": "A line \".model TYPE LABEL p1=v1 p2=v2 ...\" with a documented type, parameters of that type, each once, and numbers for values (n or p for the type of a MOS) makes a model of this type and label with these parameter values and the defaults for all others.", "quantifier": "all lines, parameters, values", "why_tests_cant": "the lines are unbounded texts; names are matched after upper-casing, values converted with suffixes", "anchors": ["ahkab/netlist_parser.py:330-366"]}
{"id": "C143", "title": "Layout of a .model line does not matter", "statement": "The order of the parameters, parentheses and a trailing comment do not change the model.", "quantifier": "all lines, permutations", "why_tests_cant": "all permutations and comments", "anchors": ["ahkab/netlist_parser.py:330-366"]}
{"id": "C144", "title": "A malformed .model line is reported as a parse error", "statement": "Missing words, unknown types, unknown parameters and values that are no numbers raise NetlistParseError.", "quantifier": "all lines", "why_tests_cant": "error paths of four constructors", "anchors": ["ahkab/netlist_parser.py:330-366"]}
{"id": "C145", "title": "Model labels identify models", "statement": "Every label refers to the model of its line; a label defined twice is reported, as for subcircuits.", "quantifier": "all sequences of model lines", "why_tests_cant": "sequences of lines are unbounded", "anchors": ["ahkab/netlist_parser.py:330-366"]}
{"id": "C146", "title": "The operating point report shows voltages and currents of the elements", "statement": "Each line of the report holds the voltage across the element and the current through it at the operating point and what follows from them (power v i of resistors, sources, diodes; charge and energy C v, C v^2/2 of capacitors, L i^2/2 of inductors); the powers of all lines add up to the power delivered by the controlled sources, which have no line, and to zero without them.", "quantifier": "all circuits, all solutions of Kirchhoff's laws", "why_tests_cant": "the balance of powers (Tellegen) is a statement about all circuits and solutions", "anchors": ["ahkab/results.py:339-400", "ahkab/components/Resistor.py:71-91", "ahkab/components/Capacitor.py:64-84", "ahkab/components/Inductor.py:54-77", "ahkab/components/sources/VSource.py:126-147", "ahkab/components/sources/ISource.py:127-147", "ahkab/diode.py:207-230"]}
{"id": "C147", "title": "The total power is what the circuit dissipates", "statement": "In a circuit without controlled sources the total power of the operating point result is the sum of v i over resistors and nonlinear elements, which is the sum of their reported powers.", "quantifier": "all circuits, all solutions", "why_tests_cant": "relates two independently computed sums over arbitrary circuits", "anchors": ["ahkab/results.py:339-440"]}
{"id": "C148", "title": "The report of an inductor shows its flux and energy", "statement": "The flux reported for an inductor is the one whose derivative is its voltage in the circuit equations, couplings included.", "quantifier": "all circuits with inductors and couplings", "why_tests_cant": "couplings are separate elements; the flux depends on all of them", "anchors": ["ahkab/components/Inductor.py:54-77", "ahkab/circuit.py:1078-1118"]}
{"id": "C149", "title": "Every element with a report appears once, in the table of its letter", "statement": "The tables of the operating point report are indexed by the first letter of the ids (a transistor has its own, under its id); each holds exactly the lines of these elements in the order of the circuit.", "quantifier": "all circuits with ids that differ by more than case", "why_tests_cant": "arbitrary sequences of ids", "anchors": ["ahkab/results.py:377-388"]}
{"id": "C15", "title": "Axis iterators include both ends, are evenly spaced and agree with indexing", "statement": "The linear iterator with n>=2 integer points yields exactly n values min+i*(max-min)/(n-1), first min, last max, all within [min,max]; the logarithmic one yields n values with constant ratio, first min, last max; element i of the iteration equals indexing with [i]; indexing beyond the end yields None; iteration then stops.", "quantifier": "all real bounds and all n", "why_tests_cant": "unbounded n and real bounds", "anchors": ["ahkab/utilities.py:lin_axis_iterator", "ahkab/utilities.py:log_axis_iterator"]}
{"id": "C150", "title": "The EKV report belongs to the bias asked for", "statement": "The report of an EKV transistor shows what i and g return at the bias asked for, whatever was evaluated before; output resistance and Early voltage are finite; SATURATION, WEAK, MODERATE and STRONG INVERSION follow the documented limits of the normalised currents, and in saturation the reverse current is below 3 percent.", "quantifier": "all devices, biases, histories of evaluations", "why_tests_cant": "the device keeps a dictionary across evaluations; the histories are unbounded", "anchors": ["ahkab/ekv.py:198-347", "ahkab/ekv.py:547-627"]}
{"id": "C151", "title": "The EKV report shows the threshold voltage", "statement": "VTH in the report is the gate voltage, as applied to the device, at which the channel is pinched off at the bulk potential.", "quantifier": "all models and devices", "why_tests_cant": "both polarities, all parameters", "anchors": ["ahkab/ekv.py:608-613"]}
{"id": "C152", "title": "The report of a switch shows its state", "statement": "The report shows resistance, current and status of the switch at the voltages asked for.", "quantifier": "all switches, histories of evaluations and reports", "why_tests_cant": "the status depends on the history of inputs through the hysteresis", "anchors": ["ahkab/switch.py:154-223"]}
{"id": "C153", "title": "The report of a square-law transistor belongs to the bias asked for", "statement": "After an analysis, and any further evaluations and reports, the report shows the conductances, current, threshold and region at the bias asked for.", "quantifier": "all devices, biases, histories", "why_tests_cant": "the device keeps a dictionary across evaluations; the histories are unbounded", "anchors": ["ahkab/mosq.py:241-386"]}
{"id": "C154", "title": "The report of a square-law transistor shows its conductances", "statement": "gm, gmb and 1/ro in the report are the conductances of the device at its bias.", "quantifier": "all devices and biases", "why_tests_cant": "all biases, both directions of the current", "anchors": ["ahkab/mosq.py:275-386"]}
{"id": "C155", "title": "Devices of the operating point analysis work in the periodic analyses", "statement": "A circuit whose nonlinear devices can be evaluated in the operating point analysis can be evaluated in the PSS analyses.", "quantifier": "all circuits", "why_tests_cant": "lists of devices of all classes", "anchors": ["ahkab/dc_analysis.py:843-881", "ahkab/bfpss.py:189-233", "ahkab/shooting.py:315-354"]}
{"id": "C156", "title": "The signals of a .plot, .four or .fft line are the ones written", "statement": "A line with any number of signals V(a), V(a,b), I(e), in either case and with blanks around the names, separated by text without an opening parenthesis, yields exactly these signals, each once, and nothing else, in the order written.", "quantifier": "all lines, all names made of word characters", "why_tests_cant": "regular expressions on unbounded text: every interleaving of signals and separators", "anchors": ["ahkab/plotting.py:49-75"]}
{"id": "C157", "title": "The plot of V(a,b) is the voltage between the nodes", "statement": "Each signal of a plot gives one curve, in order; the curve of V(a,b) is the voltage of a minus the voltage of b, in AC the magnitude and the phase of that difference, where either node may be the ground.", "quantifier": "all results, all lists of signals, all data", "why_tests_cant": "real and complex data of any length", "anchors": ["ahkab/plotting.py:161-252"]}
{"id": "C158", "title": "A signal that is not in the results is skipped", "statement": "A plot of several signals one of which is not in the results is drawn with the others, with a warning.", "quantifier": "all results, all lists of signals", "why_tests_cant": "lists of any length with the missing signal anywhere", "anchors": ["ahkab/plotting.py:211-228"]}
{"id": "C159", "title": "A comment after a post-processing directive is ignored", "statement": "The words after an asterisk on a .plot, .four or .fft line do not change what the line means.", "quantifier": "all lines, all comments", "why_tests_cant": "any text may follow", "anchors": ["ahkab/netlist_parser.py:1311-1415"]}
{"id": "C16", "title": "Step/points adjustment partitions the period exactly", "statement": "For every period>0, check_step_and_points returns points>=2 and step>0 with (points-1)*step = period; if only step is given the result step is at least the requested one and less than twice it; if both are given the points are ignored.", "quantifier": "all positive reals with step <= period and all integers points>=2", "why_tests_cant": "arithmetic with fractional parts over all reals", "anchors": ["ahkab/utilities.py:check_step_and_points"]}
{"id": "C160", "title": ".four takes the fundamental and a list of variables", "statement": ".four <f> <var> ... gives one Fourier analysis with the fundamental f and every variable, in order; anything else is reported as a parse error.", "quantifier": "all lines", "why_tests_cant": "unbounded list of variables, arbitrary text", "anchors": ["ahkab/netlist_parser.py:1355-1368"]}
{"id": "C161", "title": ".fft takes a variable and the documented parameters", "statement": ".fft <var> key=value ... gives the variable and exactly these parameters with their values; a parameter that is not known is reported as a parse error.", "quantifier": "all lines, all lists of parameters", "why_tests_cant": "arbitrary lists of parameters in any order", "anchors": ["ahkab/netlist_parser.py:1369-1405", "ahkab/fourier.py:216-300"]}
{"id": "C162", "title": "Every post-processing directive is carried out", "statement": "After the analyses each directive is carried out once, in the order of the netlist, a plot going to a file numbered by its place; with the output on stdout the plots are skipped and the rest is done; a directive that fails does not keep the following ones from being carried out.", "quantifier": "all lists of directives and results", "why_tests_cant": "sequences of directives of any length and any pattern of failures", "anchors": ["ahkab/ahkab.py:806-861"]}
{"id": "C163", "title": "The Fourier analysis uses whole periods at the end of the simulation", "statement": "For a positive fundamental and a simulation of at least one period, the result has the lines 0, f, ..., 9f, and depends only on the signal in the last k periods, k a positive whole number whose periods fit in the simulation; a shorter simulation is refused. It does so with the supported versions of Python.", "quantifier": "all signals, all time intervals and fundamentals", "why_tests_cant": "real-valued signals, times and frequencies", "anchors": ["ahkab/fourier.py:184-213"]}
{"id": "C164", "title": "The Fourier analysis discards at most half of the simulation", "statement": "As documented in the code, no more than half of the simulation is used if possible, and as much as possible within that.", "quantifier": "all time intervals and fundamentals", "why_tests_cant": "all real ratios of length and period", "anchors": ["ahkab/fourier.py:194-199"]}
{"id": "C165", "title": "The harmonic distortion is exact for nine harmonics", "statement": "For a signal that is a DC value with up to nine harmonics of the fundamental, with any amplitudes and phases, the total harmonic distortion returned is the root of the sum of squares of the amplitudes 2 to 9 over that of the first, and the lines are the amplitudes times half the number of samples.", "quantifier": "all amplitudes, phases, fundamentals and intervals", "why_tests_cant": "orthogonality of sampled harmonics for real coefficients; rounding aside no finite set of signals shows it", "anchors": ["ahkab/fourier.py:141-213"]}
{"id": "C166", "title": "The table of .four shows the amplitudes", "statement": "The DC component printed is the mean of the signal, and the magnitudes are the amplitudes of the harmonics; the normalised magnitudes are the ratios to the strongest line.", "quantifier": "all signals of nine harmonics", "why_tests_cant": "all amplitudes, phases and intervals", "anchors": ["ahkab/printing.py:328-378", "ahkab/fourier.py:199-213"]}
{"id": "C167", "title": "The symbolic solution at the element values is the solution of the circuit", "statement": "A symbolic analysis gives one expression for each unknown of the circuit (node voltages and currents of voltage-defined elements). Whenever every symbol takes the value of its element and the circuit has one solution there, the value of each expression is the value of its unknown in the numeric formulation: at s with AC, and at DC without. This holds if no unknown has the symbol of an element and sympy solves its equations.", "quantifier": "all linear circuits, choices of symbolic elements, substitutions, values of s and of the symbols", "why_tests_cant": "The test-suite compares a few printed expressions; the agreement with the numeric solution is over all circuits and all values of the symbols.", "anchors": ["ahkab/symbolic.py:103-214", "ahkab/symbolic.py:252-280", "ahkab/symbolic.py:283-557"]}
{"id": "C168", "title": "A transfer function is the change of the unknown per unit of the source", "statement": "With a source, the symbolic analysis gives for each unknown a transfer function: its gain is how much the unknown changes when the source grows by one, from any value of the source; the unknown is its value without the source plus gain times source; gain0 is the gain at s = 0. A source that the circuit does not have is reported.", "quantifier": "all linear circuits with one solution, all sources, all values of s and of the symbols", "why_tests_cant": "Linearity in the source and what happens with a mistyped source name are facts about every circuit, tests only have one transfer function.", "anchors": ["ahkab/symbolic.py:193-214", "ahkab/symbolic.py:217-249"]}
{"id": "C169", "title": "A symbolic analysis without solution is reported", "statement": "If the equations have a solution, the symbolic analysis returns it and writes the results to the output file (and the transfer functions to a second file with the suffix .tfs); if they have none, it warns and returns.", "quantifier": "all circuits, sources and output files", "why_tests_cant": "Tests have no circuit without a solution.", "anchors": ["ahkab/symbolic.py:179-214", "ahkab/results.py:959-983"]}
{"id": "C17", "title": "Integration formulas are exact on polynomials up to their order", "statement": "For every non-uniform time grid, the derivative approximation C1*x(n+1)+C0 returned by implicit Euler is exact on polynomials of degree <=1, trapezoidal rule on degree <=2, and Gear of order k on degree <=k, for every k>=1.", "quantifier": "all orders, all strictly decreasing time grids, all steps, all polynomials of the degree", "why_tests_cant": "all orders and all non-uniform grids", "anchors": ["ahkab/implicit_euler.py:get_df", "ahkab/trap.py:get_df", "ahkab/gear.py:get_df"]}
{"id": "C170", "title": "The symbolic results are printed on the command line", "statement": "A symbolic analysis started from the command line prints the results and the transfer functions and ends normally.", "quantifier": "all circuits with a solution", "why_tests_cant": "The tests call the analyses from Python, where nothing is printed.", "anchors": ["ahkab/symbolic.py:187-204", "ahkab/printing.py:270-310"]}
{"id": "C171", "title": "A result gives the symbol of a name", "statement": "as_symbol gives the unknown or element symbol with the given name, ignoring capitals, and raises ValueError if there is none, for solutions and for transfer functions.", "quantifier": "all results and names", "why_tests_cant": "The lookup is over all names; tests do not look up symbols in transfer functions.", "anchors": ["ahkab/results.py:973-1014"]}
{"id": "C172", "title": "Transistors and diodes in the symbolic analysis", "statement": "In a symbolic analysis the equations are those of the linear elements, to which each transistor adds the current gm times the voltage between gate and source from drain to source (with r0s also the drain-source voltage over r0) and each diode the current gd times its voltage, with their symbols or what is substituted for them.", "quantifier": "all circuits, voltages, values of the symbols, with and without r0s", "why_tests_cant": "Tests check one amplifier; the sum of contributions is a fact about every circuit.", "anchors": ["ahkab/symbolic.py:428-455"]}
{"id": "C173", "title": "Command line options set their settings", "statement": "Each numeric command line option sets the setting of its name to the number written and no other; options that are not given leave the settings as they were. The program starts exactly if every number is a number and one netlist is named which is a file, or \"-\"; it runs that netlist with the output file and the verbosity given.", "quantifier": "all combinations of options, all settings before", "why_tests_cant": "Eleven options can be mixed in any way; tests never start the program.", "anchors": ["ahkab/__main__.py:32-159", "ahkab/options.py:46-142"]}
{"id": "C174", "title": "The command line takes precedence over the netlist", "statement": "Options given on the command line always take precedence over the netlist: the method given with -t is the one used by every transient analysis, and with --t-fixed-step no analysis adapts its step.", "quantifier": "all command lines and all .tran directives", "why_tests_cant": "Tests never combine a command line with a netlist.", "anchors": ["ahkab/__main__.py:108-154", "ahkab/transient.py:141-149", "doc/help/Command-Line-Help.rst:11-12"]}
{"id": "C175", "title": "--dc-guess none switches the guess off", "statement": "With --dc-guess none an operating point analysis starts without a guess; with --dc-guess guess, or nothing, it uses one if the analysis asks for it.", "quantifier": "all command lines, all .op directives", "why_tests_cant": "Tests never start the program.", "anchors": ["ahkab/__main__.py:48-51", "ahkab/__main__.py:150-154", "ahkab/dc_analysis.py:619-640"]}
{"id": "C176", "title": "The method of a transient analysis is the one named", "statement": "implicit_euler, trap and gear1 to gear6, in any mixture of capital and small letters, in the directive or with -t, select that formula; without any, the trapezoidal formula is used.", "quantifier": "all spellings, all settings", "why_tests_cant": "Capital and small letters mix in any way.", "anchors": ["ahkab/transient.py:149-149", "ahkab/transient.py:205-235", "ahkab/__main__.py:52-61"]}
{"id": "C177", "title": "A differentiation module of the user", "statement": "A method that is not built in is taken from the module of that name, if it can be imported.", "quantifier": "all names and all modules", "why_tests_cant": "Tests only use built-in methods.", "anchors": ["ahkab/transient.py:205-235", "ahkab/transient.py:650-668"]}
{"id": "C178", "title": "The documented words of the directives", "statement": "In a directive that is accepted, each documented word=value gives that argument of the analysis the value written, wherever it stands in the line.", "quantifier": "all directives, all words, all values, all orders", "why_tests_cant": "The words can come in any order with any values; tests have a few lines.", "anchors": ["doc/help/Netlist-Syntax.rst:676-865", "ahkab/netlist_parser.py:1470-1541", "ahkab/dc_analysis.py:64-124", "ahkab/ac.py:110-143", "ahkab/transient.py:68-117", "ahkab/pss.py:36-77", "ahkab/pz.py:75-99", "ahkab/symbolic.py:57-81"]}
{"id": "C179", "title": "An operating point with a given starting point", "statement": ".op guess=<ic_label> starts the operating point from the values of the .ic directive of that name.", "quantifier": "all labels, all lines", "why_tests_cant": "Labels are free text.", "anchors": ["doc/help/Netlist-Syntax.rst:679-694", "ahkab/netlist_parser.py:1470-1541", "ahkab/dc_analysis.py:64-84"]}
{"id": "C18", "title": "Local truncation error coefficients are right", "statement": "For every grid, on a polynomial of degree order+1 the difference between the value produced by one step of the method (with exact history) and the exact value is x_lte_coeff times the (order+1)-th derivative.", "quantifier": "all orders, grids, steps", "why_tests_cant": "symbolic identity over all grids", "anchors": ["ahkab/implicit_euler.py:get_df", "ahkab/trap.py:get_df", "ahkab/gear.py:get_df"]}
{"id": "C180", "title": ".symbolic is a DC analysis unless ac is set", "statement": "Without ac=, a .symbolic directive is solved without the dynamic elements (ac is False by default); with ac=<bool> it is what is written.", "quantifier": "all lines", "why_tests_cant": "A default value is silent: no test without ac= looks at the result.", "anchors": ["doc/help/Netlist-Syntax.rst:868-900", "ahkab/symbolic.py:57-81"]}
{"id": "C181", "title": "The parameters of a sine", "statement": "type=sin takes VO VA FREQ TD THETA PHASE in this order, or each with its label, and the waveform has these parameters.", "quantifier": "all values, with and without labels", "why_tests_cant": "Tests have a few sines, none with a phase in the netlist.", "anchors": ["doc/help/Netlist-Syntax.rst:335-375", "ahkab/time_functions.py:156-200", "ahkab/netlist_parser.py:1177-1238"]}
{"id": "C182", "title": "The values of a DC sweep", "statement": "A linear sweep goes through start, start + step, start + 2 step and so on until stop; a logarithmic one through start, start*step, start*step^2 and so on.  A sweep that new_dc describes by a number of points has exactly that many values, from start to stop included.", "quantifier": "all starts, stops and steps, all sources", "why_tests_cant": "The grid is a function of three real numbers.", "anchors": ["doc/help/Netlist-Syntax.rst:704-730", "ahkab/dc_analysis.py:502-545", "ahkab/utilities.py:246-378"]}
{"id": "C183", "title": "What a DC sweep refuses", "statement": "A sweep starts exactly if its source exists and is independent, the step is not zero and leads from start to stop, the type is linear or logarithmic and has enough points; a logarithmic sweep downwards is refused.", "quantifier": "all circuits, bounds, steps, sources and types", "why_tests_cant": "Every combination of mistakes; the tests sweep correct ranges.", "anchors": ["ahkab/dc_analysis.py:502-545"]}
{"id": "C184", "title": "check_circuit", "statement": "The check passes exactly for a circuit with at least two nodes, one of them the reference 0, at least two elements, and no name used twice.", "quantifier": "all circuits whose nodes were registered by the circuit's functions", "why_tests_cant": "A statement about all circuits and both directions.", "anchors": ["ahkab/utilities.py:597-636"]}
{"id": "C185", "title": "A circuit that passes the check is connected to the ground", "statement": "In a circuit that passes check_circuit some element is connected to the reference node.", "quantifier": "all histories of insertions and removals", "why_tests_cant": "It depends on the whole history of the circuit.", "anchors": ["ahkab/utilities.py:620-636", "ahkab/circuit.py:1007-1076"]}
{"id": "C186", "title": "User-defined elements", "statement": "A line Y<name> n1 n2 module=<module> type=<class> ... makes an element of that class of that module, with that name, those nodes, and the other parameters as written.", "quantifier": "all names, parameters and orders", "why_tests_cant": "No test has a user-defined element.", "anchors": ["ahkab/netlist_parser.py:1075-1174", "ahkab/circuit.py:973-1004"]}
{"id": "C187", "title": "Waveforms built by position", "statement": "pulse(...) and exp(...) called with the parameters in the order in which their documentation lists them give the documented waveform.", "quantifier": "all parameters and times", "why_tests_cant": "Tests use keywords.", "anchors": ["ahkab/time_functions.py:402-454", "ahkab/time_functions.py:525-596"]}
{"id": "C188", "title": "Value and conductance of a resistor", "statement": "After any assignments to value or g of a resistor, g is the inverse of value, and the one assigned last is as assigned; an assignment that is refused changes nothing.", "quantifier": "all sequences of assignments", "why_tests_cant": "Sequences of assignments are unbounded.", "anchors": ["ahkab/components/Resistor.py:41-66"]}
{"id": "C189", "title": "Every analysis has its own output file", "statement": "Analyses with the same base name for the output write to different files.", "quantifier": "all base names, all pairs of analyses", "why_tests_cant": "It is about pairs of analyses and any name.", "anchors": ["ahkab/ahkab.py:237-248", "ahkab/ahkab.py:941-945"]}
{"id": "C19", "title": "Predictors extrapolate polynomials exactly", "statement": "The predicted value is exact for polynomials up to the order of the method (1 for IE, 2 for TRAP, k for Gear k with k+1 points) and the prediction-LTE coefficient is the exact error on the next degree.", "quantifier": "all grids and steps", "why_tests_cant": "symbolic identity over all grids", "anchors": ["ahkab/implicit_euler.py:get_df", "ahkab/trap.py:get_df", "ahkab/gear.py:get_df"]}
{"id": "C190", "title": "Coupled inductors store energy", "statement": "Two coupled inductors of positive value store a non-negative energy for all currents exactly if the coupling factor is between -1 and 1; a larger factor is refused.", "quantifier": "all inductances, factors and currents", "why_tests_cant": "The energy is a quadratic form in real currents.", "anchors": ["doc/help/Mutual-Inductors.rst:42-43", "ahkab/netlist_parser.py:530-530", "ahkab/circuit.py:576-612"]}
{"id": "C191", "title": "The ratio of a transformer", "statement": "A transformer with L1/L2 equal to the ratio of the windings n1/n2 and coupling 1 has, with the secondary open, voltages in the ratio n1/n2.", "quantifier": "all ratios, inductances and voltages", "why_tests_cant": "It is an identity between real numbers.", "anchors": ["doc/help/Mutual-Inductors.rst:70-80", "ahkab/netlist_parser.py:530-530"]}
{"id": "C192", "title": "From the netlist to the operating point", "statement": "If a netlist of linear elements (without H sources, and with the elements the other properties exclude excluded) is accepted, Kirchhoff's current law and the laws of its elements, written with the names and values of its lines, have exactly one solution, and an operating point is returned, then every value looked up in the results by the name of a node or of a current is that solution's.", "quantifier": "all netlist files, all solvers that solve, all iteration limits and options with standard solving enabled", "why_tests_cant": "Netlists are unbounded; tests compare a few circuits with stored results.", "anchors": ["ahkab/netlist_parser.py:143-275", "ahkab/ahkab.py:917-930", "ahkab/dc_analysis.py:575-687", "ahkab/results.py:262-312"]}
{"id": "C193", "title": "The AC results of a netlist obey the phasor laws of its lines", "statement": "For a netlist file that is read without error, whose elements are linear and sound (no zero resistor, no voltage-defined element with both ends on one node, couplings between two different inductors of the file), if ac_analysis returns rows, then there is one row per frequency of the sweep; looking up 'f' gives the frequencies w/2pi; and for every node named n and every element named id that has a current, looking up Vn and I(id) in any letter case gives a list of complex numbers, one per frequency, equal to the voltage and the current that Kirchhoff's current law and the law of each line (with the names, values, AC amplitudes and mutual inductances sqrt(L1 L2) k of the lines, gmin and cmin from each node to ground) determine at that frequency, wherever those laws have exactly one solution.", "quantifier": "every netlist file, every include tree, every linear circuit and node naming, every sweep of frequencies, every name and letter case, every solver that solves regular systems", "why_tests_cant": "A test compares the magnitudes of one circuit with a reference file at some tolerance; that the phasors looked up by name are the unique solution of the laws of the lines at all frequencies, for all circuits, needs the parser, the node table, the MNA stamps, the sweep and the result table at once.", "anchors": ["ahkab/netlist_parser.py:604-621", "ahkab/components/sources/VSource.py:50-56", "ahkab/components/sources/ISource.py:49-53", "ahkab/ac.py:146-298", "ahkab/results.py:575-685"]}
{"id": "C194", "title": "From the netlist to the results of a DC sweep", "statement": "If a netlist of linear elements (with the exclusions of C192) is accepted and a linear sweep of one of its independent sources returns results, then the circuit is left as it was, the values stored are among those of the sweep and, unless skipping is allowed, all of them; looking up the name of the source in any letter case gives these values; and looking up the voltage of a node or the current of an element by name gives, point by point, the value that Kirchhoff's current law and the laws of the lines determine with the swept value in place of the DC value of that source, whether or not it also has a time function, wherever those laws have exactly one solution.  The name of the source must not be that of a node voltage or a current (C36).", "quantifier": "all netlist files, all sources, all start, stop and step values, all solvers that solve, all starting points and guesses", "why_tests_cant": "Each point depends on the edit of the source, on the solution of the point before as starting point, and on the columns of the table; tests compare one sweep of one circuit.", "anchors": ["ahkab/dc_analysis.py:461-595", "ahkab/results.py:714-782", "ahkab/components/sources/VSource.py:75-97", "ahkab/components/sources/ISource.py:72-98"]}
{"id": "C195", "title": "A circuit with exactly one operating point gets it", "statement": "If the laws of an accepted netlist of linear elements (with the exclusions of C192) have exactly one solution, the operating point analysis returns it.  This is false: resistors may be negative, and the conductances that the solver adds to help convergence, gmin and those of the first steps of the gmin and source stepping, may cancel them, so that every system tried is singular and the analysis reports that there is no solution.  It holds for netlists of positive resistors, capacitors, inductors, coupled or not, and independent sources, whatever gmin >= 0 and the starting point: the conductances to ground cannot make the system singular (Tellegen's theorem), and the values looked up are those of the solution.  In the same class a DC sweep gives one row for each of its values, none being skipped.", "quantifier": "all netlist files of that class, all gmin >= 0, all solvers that solve, all starting points, all sweeps", "why_tests_cant": "Whether a system to which conductances have been added is regular is a statement about all circuits; tests run circuits that converge.", "anchors": ["ahkab/dc_analysis.py:128-320", "ahkab/dc_analysis.py:323-351", "ahkab/dc_analysis.py:575-687", "ahkab/dc_analysis.py:461-595"]}
{"id": "C196", "title": "Transient results looked up by name obey the laws of the netlist", "statement": "For an accepted netlist of linear elements (exclusions of C192; coupled inductors included), whenever a transient analysis returns results, and the circuit with sources off has no solution that grows as exp(k t), k > 0: the table looked up by name (t, V of each node, I of each voltage-defined element) lists points, later and later, from the first step after tstart to one not before tstop, such that together with the given starting point at each of them Kirchhoff's current law holds at every node, with the currents of options.gmin and options.cmin to ground included, every element obeys its law for the values of the sources at that time, and the derivatives in the laws of capacitors and inductors are those of the chosen method: backward differences for implicit Euler and for the first step of the others, the trapezoidal rule, or the slope of the polynomial through the last k points for Gear's methods once there are enough points.  Circuits of positive resistors, capacitors and uncoupled inductors with independent sources, no loop of voltage sources, and gmin or cmin positive, have no such growing solution; for them the trapezoidal method with a fixed step always returns results, at the times tstart + k tstep.", "quantifier": "all netlist files, all methods with and without step control, all source functions, all starting points, all solvers that solve", "why_tests_cant": "The laws are equations between all looked-up values at every step of an arbitrary run; tests compare a few waveforms within tolerances.", "anchors": ["ahkab/transient.py:121-428", "ahkab/dc_analysis.py:128-320", "ahkab/results.py:783-841", "ahkab/transient.py:472-540", "ahkab/implicit_euler.py:125-205", "ahkab/trap.py:98-193", "ahkab/gear.py:122-208"]}
{"id": "C197", "title": "The operating point of a circuit with diodes and transistors nearly obeys the laws of the netlist, within the options", "statement": "For an accepted netlist of resistors, sources, capacitors, inductors, diodes and transistors (exclusions of C192, no switches), whatever the equations of the devices and whatever the linear solver returns: if the operating point analysis returns values, then they are V = V' + k dV, I = I' + k dI with 0 < k <= 1, each |dV| at most vea + ver |V + dV|, each |dI| at most iea + ier |I + dI|, and for V', I' Kirchhoff's current law holds at every node within options.iea, the currents of the devices for the voltages of their ports included, and the law of every voltage-defined element within options.vea.  The sources and the conductance g to ground of these laws are: the sources as written, with g = 0 if the result is reported as checked and g = options.gmin otherwise; or, only if source stepping is allowed, the sources times one of its ten factors; or, only if gmin stepping is allowed, one of its conductances.  The loop on the devices never fails on such a netlist.", "quantifier": "all netlist files, all device equations, all models of linear solvers (even wrong ones), all starting points, options, limits on iterations", "why_tests_cant": "Says what convergence of the iteration gives a user for every device equation and every run; a test checks one circuit and relies on one solver.", "anchors": ["ahkab/dc_analysis.py:128-320", "ahkab/dc_analysis.py:598-840", "ahkab/dc_analysis.py:801-881", "ahkab/diode.py:126-133", "ahkab/mosq.py:139-204", "ahkab/ekv.py:173-182", "ahkab/utilities.py:392-548"]}
{"id": "C198", "title": "Transient results of a circuit with diodes and transistors nearly obey the laws of the netlist, within the options", "statement": "For the netlists of C197, whatever the equations of the devices and whatever the linear solver returns: if a transient analysis returns results, the table looked up by name lists points, later and later, from the first step after tstart to one not before tstop, such that each of them is within the tolerances on voltages and currents (as in C197) of values that satisfy Kirchhoff's current law at every node within options.iea, with the currents of the devices, of options.gmin and of options.cmin included, and the laws of voltage-defined elements within options.vea, for the values of the sources at that time (times a factor of source stepping, or with a conductance of gmin stepping, only if these methods are allowed); the derivatives are those that the chosen method gives for these values and the previous points.", "quantifier": "all netlist files, all device equations, all methods with and without step control, all solvers (even wrong ones), all starting points", "why_tests_cant": "The statement is about every step of an arbitrary run of a nonlinear circuit; tests compare few waveforms.", "anchors": ["ahkab/transient.py:121-428", "ahkab/dc_analysis.py:128-320", "ahkab/dc_analysis.py:801-881", "ahkab/results.py:783-841"]}
{"id": "C199", "title": "AC results of a circuit with diodes and transistors obey the laws of the circuit linearized at the operating point", "statement": "For an accepted netlist of resistors, capacitors, inductors (coupled or not), independent and controlled sources, diodes and transistors (exclusions of C193, no switches), whatever the equations of the devices: if an AC analysis returns results, the results looked up by name list the frequencies of the sweep, and at each frequency where the laws have one solution and only one, every voltage V<node> and every current I(<part>) is that of the solution of: Kirchhoff's current law at every node, with the phasors written in the netlist, the conductance options.gmin and the capacitance options.cmin, where each device draws the current that its derivatives at the operating point give for the phasors of its terminals; and the laws of the voltage-defined elements.  The operating point is the one supplied, or else that of an operating point analysis.", "quantifier": "all netlist files, all device equations and derivatives, all sweeps, all operating points", "why_tests_cant": "Relates the text of an arbitrary netlist with devices to the complex results at every frequency; a test fixes a circuit and a device.", "anchors": ["ahkab/ac.py:146-298", "ahkab/ac.py:436-443", "ahkab/dc_analysis.py:801-881", "ahkab/results.py:625-741"]}
{"id": "C20", "title": "History buffer returns the newest rows, newest first", "statement": "After any sequence of add calls (a caller that catches the ValueError of a wrong width) the history buffer holds the most recent min(count,length) rows of the right width, newest first; it is ready exactly when `length` rows were accepted; read as a matrix it gives, for every field, the kept entries stacked oldest first.", "quantifier": "all sequences of add/read operations and all buffer lengths", "why_tests_cant": "unbounded histories", "anchors": ["ahkab/transient.py:dfbuffer"]}
{"id": "C200", "title": "In AC analysis devices follow the small-signal model of the operating point report", "statement": "In an AC analysis a diode carries gd times the voltage between anode and cathode, and a square-law transistor carries gmd vds + gm vgs + gmb vbs from drain to source and nothing through gate and bulk, with the conductances of the operating point; these are the slopes of the currents.", "quantifier": "all circuits, operating points, models and sizes of transistors, phasors", "why_tests_cant": "The statement ranges over real-valued operating points and phasors; the sign of vds at the operating point selects different code.", "anchors": ["ahkab/ac.py:436-443", "ahkab/mosq.py:341-410", "ahkab/diode.py:165-192"]}
{"id": "C201", "title": "DC sweeps of circuits with diodes and transistors obey the laws of the netlist at every value", "statement": "For an accepted netlist of resistors, capacitors, inductors (coupled or not), independent and controlled sources, diodes and transistors (exclusions of C197), whatever the equations of the devices: if a linear DC sweep returns results, the circuit is left unchanged; the swept source is the source of the netlist with the given name; the results list the values of the sweep (all of them unless skipping is allowed), and at each of them the voltages and currents looked up by name differ by less than the tolerances of the Newton method from values for which Kirchhoff's current law at every node and the laws of the voltage-defined elements, with the swept value in place of the one written in the netlist, hold within the absolute tolerances, for one of the homotopy stages that the options allow.", "quantifier": "all netlist files, all device equations and derivatives, all sweeps, all linear solvers, all tolerances", "why_tests_cant": "Relates the text of an arbitrary netlist with devices to the whole table of a sweep; a test fixes a circuit, a device and a sweep.", "anchors": ["ahkab/dc_analysis.py:461-595", "ahkab/dc_analysis.py:598-800", "ahkab/results.py:733-776"]}
{"id": "C202", "title": "Brute-force periodic steady states obey the laws of the netlist and are periodic", "statement": "For an accepted netlist of resistors, capacitors, inductors (coupled or not), independent and controlled sources: if the brute-force periodic steady state analysis returns results, the samples looked up by name (time, node voltages, currents of the voltage-defined elements) are at the times 0, h, 2h, .. up to the period, with the step h and the number of points that the request means; at each sample after the first Kirchhoff's current law and the laws of the elements, written with the names and values of the netlist lines, hold exactly for the values of the sources at that time, derivatives being backward differences between consecutive samples; and the last sample equals the first.", "quantifier": "all netlist files, all periods, steps and numbers of points, all starting guesses, all tolerances, all time functions of the sources", "why_tests_cant": "Relates the text of an arbitrary netlist to the whole table of results; a test fixes a circuit and compares with a simulation.", "anchors": ["ahkab/bfpss.py:43-292", "ahkab/bfpss.py:295-405", "ahkab/pss.py:81-112", "ahkab/results.py:877-928"]}
{"id": "C203", "title": "Shooting periodic steady states obey the laws of the netlist and are periodic", "statement": "For an accepted netlist of resistors, capacitors, inductors (coupled or not), independent and controlled sources: if the shooting periodic steady state analysis returns results, the samples looked up by name are at the times 0, h, .. up to the period; at each of them the laws of the netlist hold exactly, derivatives being backward differences; and the last sample equals the first. REFUTED for the last part: the sample a step before the first one is the last one, so the results repeat after the period plus a step. Witness: for a current (1+cos(2 pi t))/2 into 1 ohm and 1 F in parallel, period 1, 3 points, the voltages reported at 0, 1/2 and 1 are 15/19, 10/19 and 13/19.", "quantifier": "all netlist files, all periods, steps and numbers of points, all tolerances, all time functions of the sources", "why_tests_cant": "Relates the text of an arbitrary netlist to the whole table of results; the error shrinks with the step, so comparisons within tolerances pass.", "anchors": ["ahkab/shooting.py:41-260", "ahkab/shooting.py:263-420", "ahkab/pss.py:81-112"]}
{"id": "C204", "title": "The waveform of a source is the one its netlist line describes", "statement": "For a source line with type=sin, exp, pulse, sffm or am whose parameters, given by label or by position and in any mixture, are numbers the manual allows (those with a default may be left out): the value of the source at any time t >= 0 is the formula of the manual with these parameters; in particular a pulse is the trapezoid between its two levels, repeated with its period.", "quantifier": "all source lines of the five types, all parameters by label or position, all times t >= 0", "why_tests_cant": "Every combination of labels and positions, over all reals; tests plot a few waveforms.", "anchors": ["ahkab/netlist_parser.py:1177-1238", "ahkab/time_functions.py:340-720", "ahkab/components/sources/VSource.py:75-97", "ahkab/components/sources/ISource.py:72-98"]}
{"id": "C205", "title": "Periodic steady states of circuits with diodes and transistors obey the laws of the netlist within the tolerances", "statement": "For an accepted netlist with diodes, MOS transistors or switches, whatever the device equations: if a periodic steady state analysis (shooting or brute force) returns results, the looked-up samples are on the way, by a factor above 0 and at most 1, from old values to new ones; the way is shorter than the tolerances allow for the largest sample; the new values obey, at each sample, Kirchhoff's current law and the laws of the elements with each device replaced by its tangent at the old values, derivatives being backward differences; and with brute force the new values at the end of the period are those at its start. REFUTED in the stronger form that holds for operating points and transient results, namely that the currents at each node balance within the absolute tolerance iea: nothing tests it. Witness: 1 A into a diode (IS = 1e-14 A, thermal voltage 25 mV), default tolerances, for which the brute force method returns a voltage at which the diode takes over 1.00002 A.", "quantifier": "all netlist files, all device equations, all periods, steps and numbers of points, all starting guesses, all tolerances, all time functions of the sources", "why_tests_cant": "Relates the text of an arbitrary netlist with arbitrary device equations to the whole table of results; tests compare with simulations within tolerances.", "anchors": ["ahkab/bfpss.py:43-292", "ahkab/bfpss.py:295-405", "ahkab/shooting.py:41-260", "ahkab/shooting.py:263-420", "ahkab/pss.py:81-112"]}
{"id": "C206", "title": "Poles and zeros of a netlist are its natural and its blocked frequencies", "statement": "For an accepted netlist, also with diodes, MOS transistors or switches, whatever the device equations, without coupled inductors: if a pole-zero analysis returns results, then a number p below pz_max in modulus is listed as a pole exactly when, with s = 2 pi p, voltages and currents varying like exp(s t), not all zero, obey Kirchhoff's current law at every node and the law of every element with all sources off and each device replaced by its derivatives at the linearization point; if zeros are listed, then z below pz_max is listed exactly when some value of the input source varying like exp(s t) and such voltages and currents, not all zero, give no voltage between the two nodes of the output port; without an input or an output no zeros are listed.", "quantifier": "all netlist files, all device equations, all linearization points, all inputs and output ports, all numbers", "why_tests_cant": "Relates the text of an arbitrary netlist to the exact set of complex numbers listed; tests compare a handful of circuits with known results.", "anchors": ["ahkab/pz.py:104-343", "ahkab/netlist_parser.py:141-330"]}
{"id": "C207", "title": "Poles of passive netlists are stable", "statement": "If an accepted netlist has only resistors, capacitors and inductors of positive value and independent sources, every pole listed by a pole-zero analysis has a real part at most zero; if it also has no inductors, or no capacitors, every pole is real; if it has no resistors, every pole has real part zero.", "quantifier": "all passive netlist files, all poles, any number of nodes and elements", "why_tests_cant": "A statement about the spectrum of matrices of any size, needs an energy argument; tests sample single circuits.", "anchors": ["ahkab/pz.py:104-343"]}
{"id": "C208", "title": "The output port of a pole-zero analysis", "statement": "The output V(a,b), written with any blanks and in any case, means the voltage from node a to node b. Documented: if the port is composed of only one node, the other is ground. REFUTED: for every netlist, every input and every options, the output V(a) raises TypeError and the output a raises ValueError.", "quantifier": "all texts of output ports, all netlists, all inputs", "why_tests_cant": "Any text and any netlist; the line with V(OUT) in the test directory is not run by a test.", "anchors": ["ahkab/pz.py:174-199", "ahkab/ahkab.py:517-575", "ahkab/plotting.py:49-85"]}
{"id": "C209", "title": "The text of a netlist with subcircuits is the circuit of the flattened hierarchy", "statement": "If the lines of a netlist file and of the files it includes are element lines, .subckt blocks with distinct names, and instances X... name=sub port=node ... with the words in any order and every port of the declaration tied once, nested to any depth, then the circuit consists of exactly the elements of the netlist and, for each instance, those of its subcircuit, in order, where ports are the nodes they are tied to, ground is ground, and every other node and every element name is private to the instance (with the full names of C28); it is accepted exactly when a netlist with these element lines would be. An instance of an undeclared subcircuit, or with a missing or an extra port, makes the netlist be refused with NetlistParseError wherever it stands. Whatever the lines, a netlist with subcircuits that is accepted is accepted as a netlist of elements, so that all end-to-end claims hold for it.", "quantifier": "all files, any number and nesting of subcircuits, instances, ports and elements, any order of the words", "why_tests_cant": "Quantifies over all texts and all nestings; tests flatten a handful of files.", "anchors": ["ahkab/netlist_parser.py:1699-1791", "ahkab/netlist_parser.py:257-275", "ahkab/netlist_parser.py:1642-1645", "ahkab/circuit.py:1193-1272"]}
{"id": "C21", "title": "Transient time axis is strictly increasing and ends at tstop", "statement": "Under step control, for every sequence of Newton successes/failures and error estimates, accepted time points strictly increase from tstart, never exceed tstop, consecutive points are at most HMAX apart, and a run which completes ends precisely at tstop.", "quantifier": "all schedules of solver outcomes and error estimates", "why_tests_cant": "adaptive stepping over arbitrary outcome histories", "anchors": ["ahkab/transient.py:transient_analysis", "ahkab/transient.py:check_step"]}
{"id": "C210", "title": "The laws of a flattened circuit are those of the netlist and of each instance", "statement": "For a hierarchy of subcircuits without F, H and K lines: voltages and currents under the full names obey Kirchhoff's current law at every node and the law of every element of the flattened circuit if and only if, in the netlist and in each instance by itself, with its own names, every element obeys its law, the currents balance at each inner node, the ports have the voltages of the nodes they are tied to, and the currents that flow into the ports of an instance count as leaving the nodes they are tied to. This holds for direct current, for AC, for transient analysis, and with devices within the tolerances of Newton's method.", "quantifier": "all hierarchies, all voltages and currents, all frequencies, gmin and cmin, all device equations", "why_tests_cant": "An equivalence between two systems of equations of any size; tests look at results of single circuits.", "anchors": ["ahkab/circuit.py:1193-1272", "ahkab/netlist_parser.py:1642-1645"]}
{"id": "C211", "title": "Results of netlists with subcircuits obey the laws of the netlist and of each instance", "statement": "If a netlist file with subcircuits (no F, H and K lines in them) is accepted, then: an operating point of a linear circuit reports, under the full names, the voltages and currents for which the netlist and each instance obey their laws, when there is one solution only; an AC analysis reports at each frequency the phasors for which they do; at each point of a transient analysis the reported values and their discrete derivatives obey them; with devices the operating point is within the tolerances of values for which they hold within the tolerances.", "quantifier": "all netlist files, all hierarchies, all runs that return results", "why_tests_cant": "From arbitrary text to arbitrary results; tests compare single circuits with stored results.", "anchors": ["ahkab/netlist_parser.py:141-330", "ahkab/netlist_parser.py:1699-1791", "ahkab/circuit.py:1193-1272", "ahkab/dc_analysis.py:420-520", "ahkab/ac.py:91-260", "ahkab/transient.py:137-420"]}
{"id": "C212", "title": "The program runs the analyses that the lines of the netlist ask for, with the numbers written there", "statement": "If the whole program runs on a netlist file without an exception, then for a line .op, .dc, .ac or .tran that no later line of its type follows, the dictionary of results has under that type the result of that analysis on the circuit of the netlist, with the numbers written in the line, whether as label=value in any order or at their documented places, and with the documented defaults for what is absent: source, start, stop and step of a DC sweep, number of points, limits and kind of an AC sweep, step, end, start and method of a transient analysis. Other lines before and after make no difference, except that a transient analysis with uic=1 starts from the result of the last .op line before it, and one with uic=2 from icmodified_x0 of that result; with uic=0 or none it starts from zero. An operating point without ic_label starts from the guess, or zero if there is none.", "quantifier": "all netlist files and files they include, all lines before and after, all orders of the words", "why_tests_cant": "Quantifies over all files and all combinations of directives; the tests run some 40 fixed netlists.", "anchors": ["ahkab/ahkab.py:866-975", "ahkab/ahkab.py:661-720", "ahkab/netlist_parser.py:1418-1541"]}
{"id": "C213", "title": "From the netlist file to the dictionary of results: the laws hold, and a transient with uic=1 starts from the operating point", "statement": "If the whole program runs on a netlist file of a linear circuit (with or without subcircuits) with a line .op, and the direct-current laws of the netlist have one solution, then the operating point in the dictionary of results, if it is not None, reports under the names of the nodes and elements that solution. If a later line .tran has uic=1, its result begins at the reported operating point, hence at that solution, at the written start time, obeys the laws of the netlist at each point with the derivatives of the chosen method, and goes on to the written end. A line .dc gives, for each value of the sweep written there, the solution with the source at that value, and a line .ac the phasors that solve the laws at the frequencies written there, under the same names.", "quantifier": "all netlist files, all circuits of linear elements, all written numbers, all methods", "why_tests_cant": "From arbitrary text to arbitrary results through all modules; tests compare single circuits with stored results.", "anchors": ["ahkab/ahkab.py:866-975", "ahkab/netlist_parser.py:141-330", "ahkab/dc_analysis.py:420-520", "ahkab/transient.py:137-420"]}
{"id": "C214", "title": "A netlist of passive elements always gets its operating point and its transient", "statement": "If the netlist file (with or without subcircuits) describes a circuit of linear elements with non-negative element values and its direct-current laws have one solution, and the only directive is .op, then the whole program ends without an exception and the dictionary of results has exactly one entry, op, which reports that solution. If the directives are .op and .tran tstep tstop uic=1, the values are dissipative, no loop consists of voltage sources and the trapezoidal rule is used without step control, then it ends with exactly the results op and tran, and the transient has the points tstep, 2 tstep, ... up to the first one that reaches tstop.", "quantifier": "all netlist files of such circuits, all numbers in the lines", "why_tests_cant": "A statement that no file of an infinite class fails; tests run single files.", "anchors": ["ahkab/ahkab.py:866-975", "ahkab/netlist_parser.py:141-330", "ahkab/dc_analysis.py:420-520", "ahkab/transient.py:137-420"]}
{"id": "C215", "title": "A subcircuit that contains itself is reported as an error of the netlist", "statement": "A netlist where a subcircuit contains an instance of itself, directly or by way of others, is refused with NetlistParseError.", "quantifier": "all netlist files with cyclic subcircuit declarations that are used", "why_tests_cant": "Needs the absence of a bound over all recursion depths.", "anchors": ["ahkab/netlist_parser.py:1726-1791", "ahkab/netlist_parser.py:278-316"]}
{"id": "C216", "title": "A transient with uic=3 starts from the values written in the .ic line it names", "statement": "If the program runs on a netlist file of a linear circuit with a line .tran ... uic=3 ic_label=NAME and exactly one line .ic name=NAME v(a)=x i(l1)=y ..., then the transient in the dictionary of results starts, at the written start time, from exactly these values: the node voltages and currents written in the .ic line have the written values, all others are zero. From there it obeys the laws of the netlist at each point with the derivatives of the chosen method and goes on to the written end.", "quantifier": "all netlist files, all linear circuits, all sets of conditions on nodes and voltage-defined elements, all other lines", "why_tests_cant": "From arbitrary text through the parser, the table of names and the order of the unknowns to the first point of the simulation; tests only run a few circuits.", "anchors": ["ahkab/ahkab.py:866-975", "ahkab/ahkab.py:620-720", "ahkab/netlist_parser.py:1418-1450", "ahkab/netlist_parser.py:1671-1696", "ahkab/dc_analysis.py:1072-1123", "ahkab/transient.py:137-420"]}
{"id": "C217", "title": "A transient with uic=2 starts from the operating point with the initial conditions of the capacitors and inductors", "statement": "If the program runs on a netlist file of a linear circuit with a line .op followed by .tran ... uic=2, then the transient starts from a point where every capacitor with ic=v has the voltage v, every inductor with ic=i has the current i, and all other quantities are those of the operating point in the dictionary of results.", "quantifier": "all netlist files, all linear circuits, all initial conditions", "why_tests_cant": "A relation between the text of the element lines and the starting point of the simulation, for all circuits; the tests have single circuits.", "anchors": ["ahkab/ahkab.py:766-778", "ahkab/dc_analysis.py:1126-1190", "ahkab/ahkab.py:620-720", "ahkab/netlist_parser.py:405-508"]}
{"id": "C218", "title": "The results of the program for circuits with diodes and transistors nearly obey the laws of the netlist, within the options", "statement": "If the whole program runs on a netlist file of a circuit with diodes, MOS transistors or other nonlinear devices (with or without subcircuits), then the operating point, DC sweep and uic=1 transient in its dictionary of results, where they are not None, report under the names of the nodes and elements values that are within the tolerances of the options of values where the laws of the netlist, with the equations of the devices, hold up to the tolerances: Kirchhoff's laws at each node and the equation of each element, for each point of the sweep, and at each time point with the derivatives of the chosen method. The transient starts at the reported operating point. If gmin or source stepping did not finish, the laws are those of the stage that was reached.", "quantifier": "all netlist files, all circuits with nonlinear devices, all options, all other lines", "why_tests_cant": "Any device equations, any tolerances, any number of points and iterations, from the text of the file to the dictionary of results; tests compare single circuits with stored waveforms.", "anchors": ["ahkab/ahkab.py:866-975", "ahkab/netlist_parser.py:44-326", "ahkab/dc_analysis.py:128-320", "ahkab/dc_analysis.py:461-597", "ahkab/dc_analysis.py:690-842", "ahkab/transient.py:137-420", "ahkab/utilities.py:392-550"]}
{"id": "C219", "title": "The poles and zeros of the program are those of the netlist around the operating point", "statement": "If the program runs on a netlist file (with or without devices and subcircuits, without coupled inductors) with a line .op followed by .pz, then the poles in the dictionary of results are exactly the natural frequencies, below options.pz_max, of the laws of the netlist linearised at the reported operating point; with an output and an input written in the line, the zeros, if there are any, are exactly the frequencies at which the output can stay at zero; without, there are none. As documented, a circuit without devices needs no linearization point, so that a .pz line alone is enough.", "quantifier": "all netlist files, all circuits without coupled inductors, all devices, all other lines", "why_tests_cant": "An equivalence over all complex numbers, for all circuits, from the text of the file to the dictionary of results; the tests compare stored poles of single filters.", "anchors": ["ahkab/ahkab.py:866-975", "ahkab/netlist_parser.py:1470-1541", "ahkab/pz.py:135-343", "ahkab/ahkab.py:620-720"]}
{"id": "C22", "title": "Fixed-step transient stays within tstop", "statement": "Without step control the transient analysis does not simulate past tstop.  This is false: the last point is the first multiple of tstep at or after tstop, so it lies up to a step later unless tstep divides the interval.  What holds: with the trapezoidal rule, a solver that succeeds and no limit on iterations, the points are exactly tstart + k tstep, k = 1 ... n, the last being the only one not before tstop.", "quantifier": "all tstep, tstop", "why_tests_cant": "fails only when tstep does not divide the interval", "anchors": ["ahkab/transient.py:transient_analysis"]}
{"id": "C220", "title": "The AC response of the program for circuits with devices is that of the netlist around its operating point", "statement": "If the program runs on a netlist file of a circuit with diodes or transistors with a line .ac, then the result in its dictionary, if it is not None, has the frequencies written in the line, and at each of them, under the names of the nodes and elements, the phasors that solve the laws of the netlist with each device replaced by its conductances at the operating point, whenever these laws have one solution. The operating point is the one that an .op line without arguments reports, wherever that line stands in the file, and is found also if there is no such line.", "quantifier": "all netlist files, all circuits with nonlinear devices, all sweeps, all other lines", "why_tests_cant": "Relates the results of two analyses of one run for all circuits and all texts; the tests compare stored responses.", "anchors": ["ahkab/ahkab.py:866-975", "ahkab/ac.py:143-331", "ahkab/ac.py:436-443", "ahkab/dc_analysis.py:598-689", "ahkab/netlist_parser.py:1470-1541"]}
{"id": "C221", "title": "The periodic steady state of the program is a period of the netlist", "statement": "If the program runs on a netlist file with a line .pss, then the result in its dictionary, if it is not None, has the period and the number of points (or the step) written in the line; for circuits without devices the laws of the netlist, with backward differences for the derivatives, hold at each point after the first (brute force) or at all of them (shooting, a step before the first point the values being those of the last one), and with brute force the last point is the first; for circuits with devices this holds for the tangents at values that are close to the reported ones. As documented, the last point is the first with shooting too, and the program halts if autonomous is true.", "quantifier": "all netlist files, all circuits, both methods, all other lines", "why_tests_cant": "Quantifies over all circuits, texts of the line and numbers of points; the tests compare stored waveforms of single circuits.", "anchors": ["ahkab/ahkab.py:866-975", "ahkab/netlist_parser.py:1470-1541", "ahkab/pss.py:37-112", "ahkab/shooting.py:40-260", "ahkab/bfpss.py:43-292", "ahkab/utilities.py:551-595", "doc/help/Netlist-Syntax.rst:798-817"]}
{"id": "C222", "title": "An operating point of the program starts from the guess, from zero or from the named conditions, as the .op line says", "statement": "If the program runs on a netlist file with a line .op, not followed by another one, then the operating point in its dictionary is that of the iteration started from: the guess of the program, if the line has no ic_label and does not say guess=no (and guesses are not switched off in the options); zero, if it says guess=no; the node voltages and currents written in the .ic line of that name, and zero for what is not written there, if it has ic_label=NAME, wherever the .ic line stands; the last operating point before it, if the name is op.", "quantifier": "all netlist files, all circuits with and without devices, all names, conditions and other lines", "why_tests_cant": "The starting point selects among several operating points of a circuit; that it is right for all circuits and conditions, and independent of the order of the lines, cannot be sampled.", "anchors": ["ahkab/ahkab.py:866-975", "ahkab/ahkab.py:661-720", "ahkab/dc_analysis.py:60-83", "ahkab/dc_analysis.py:598-689", "ahkab/netlist_parser.py:1418-1541"]}
{"id": "C223", "title": "A transient analysis that starts from the operating point, with constant sources, stays there", "statement": "If the program runs on a netlist file with an .op line and, after it, a .tran line with uic=1, no source of the circuit changes with time, and the circuit has one operating point, then every value of every node voltage and branch current that the transient analysis reports is the value reported for the operating point, with each of the methods of integration (implicit Euler, trapezoidal, GEAR1 to GEAR6) and whatever steps are chosen.", "quantifier": "all netlist files of linear elements, all steps, methods and run lengths", "why_tests_cant": "A drift of the transient analysis away from an equilibrium shows only in some circuits, with some methods and after some number of steps; no finite number of runs excludes it.", "anchors": ["ahkab/transient.py:121-428", "ahkab/transient.py:205-235", "ahkab/dc_analysis.py:598-689", "ahkab/dc_analysis.py:323-352", "ahkab/ahkab.py:866-975"]}
{"id": "C224", "title": "The program gives the same results whatever the order of the elements", "statement": "If two netlist files describe the same elements in different orders (within a file, in included files or in subcircuits), then the operating points that the program finds for them agree in every node voltage and every branch current, and so do the results of AC analyses over the same frequencies, value by value, although the rows of the matrices, the numbers of the nodes, the options of the iteration, the starting points and the linear solvers may differ. So do transient analyses that use the same method of integration and report the same times.", "quantifier": "all pairs of netlist files of linear elements with the same elements, all orders, frequencies and options", "why_tests_cant": "The order decides the numbers of the nodes and of the extra unknowns, and with them every index in the program; the orders of a netlist of n lines are n! many.", "anchors": ["ahkab/ahkab.py:866-975", "ahkab/netlist_parser.py:145-317", "ahkab/circuit.py:208-254", "ahkab/dc_analysis.py:598-689", "ahkab/ac.py:146-321", "ahkab/results.py:245-330", "ahkab/results.py:554-712"]}
{"id": "C225", "title": "The operating points that the program finds obey superposition", "statement": "If three netlist files describe the same linear elements except for the values of the independent sources, and each value of the third is k1 times that of the first plus k2 times that of the second, then each node voltage and branch current that the program reports for the third is k1 times that reported for the first plus k2 times that for the second.", "quantifier": "all triples of netlist files of linear elements, all values and factors", "why_tests_cant": "Superposition relates the results of three runs for all values of all sources; runs with chosen values only show single instances.", "anchors": ["ahkab/ahkab.py:866-975", "ahkab/dc_analysis.py:598-689", "ahkab/dc_analysis.py:949-1070", "ahkab/results.py:245-330"]}
{"id": "C226", "title": "A DC sweep gives the operating point where the swept source has its own value", "statement": "If the program runs on a netlist file with an .op line and a linear .dc line, then in the results of the sweep, in each row where the value of the swept source is the one that the netlist gives to it, every node voltage and branch current is the one reported for the operating point.", "quantifier": "all netlist files of linear elements, all sources, ranges and steps", "why_tests_cant": "The sweep changes the source and restores it, and solves each point from the one before; that this never changes a value shows only in a comparison for all circuits and ranges.", "anchors": ["ahkab/ahkab.py:866-975", "ahkab/dc_analysis.py:461-596", "ahkab/dc_analysis.py:598-689", "ahkab/results.py:714-782"]}
{"id": "C227", "title": "The transient analyses that the program makes obey superposition", "statement": "If three netlist files describe the same linear elements except for the independent sources, and at each time the value of each source of the third is k1 times that of the first plus k2 times that of the second, and the program makes transient analyses of them with the same method of integration and the same times, all from zero or all from the operating point, then at each time each node voltage and branch current reported for the third is k1 times that for the first plus k2 times that for the second.", "quantifier": "all triples of netlist files of linear elements, all time functions, factors and numbers of steps, each method of integration", "why_tests_cant": "Superposition relates three runs with all waveforms of all sources and any number of steps; runs with chosen waveforms only show single instances.", "anchors": ["ahkab/ahkab.py:866-975", "ahkab/transient.py:121-428", "ahkab/implicit_euler.py:1-205", "ahkab/trap.py:1-193", "ahkab/gear.py:1-208"]}
{"id": "C228", "title": "The AC analyses that the program makes obey superposition, and do not depend on DC values", "statement": "If three netlist files describe the same linear elements except for the independent sources, and the AC amplitude of each source of the third is k1 times that of the first plus k2 times that of the second, then at each frequency each complex node voltage and branch current that the program reports for the third is k1 times that for the first plus k2 times that for the second. In particular, the AC results do not change with the DC values and the time functions of the sources.", "quantifier": "all triples of netlist files of linear elements, all amplitudes, DC values, time functions, factors and frequencies", "why_tests_cant": "The relation is between runs for all values of all sources and all frequencies; runs with chosen values only show single instances.", "anchors": ["ahkab/ahkab.py:866-975", "ahkab/ac.py:146-321", "ahkab/results.py:554-712"]}
{"id": "C229", "title": "The AC analyses of circuits of resistors, capacitors, inductors and sources always succeed", "statement": "If a netlist file describes resistors and inductors of positive value, capacitors of value not negative and independent sources, with no loop of voltage sources, and has the line .ac with a linear or logarithmic sweep of n >= 2 points from a positive frequency to one not below it, then the program reports n points (never None or an error), at each frequency the circuit has exactly one solution of Kirchhoff's laws and the laws of the elements, and each reported node voltage and branch current is that of this solution.", "quantifier": "all such netlist files (with included files and subcircuits), all values, sweeps, numbers of points and all gmin > 0 and cmin", "why_tests_cant": "That the matrix is never singular holds at uncountably many frequencies and element values; a test samples a few, and resonances are exactly where sampling says least.", "anchors": ["ahkab/ahkab.py:866-975", "ahkab/ac.py:146-321", "ahkab/dc_analysis.py:128-321", "ahkab/netlist_parser.py:145-317"]}
{"id": "C23", "title": "k-combinations iterator is complete and duplicate free", "statement": "Iterating combinations(L,k) with 1<=k<=len(L) yields every k-element sublist of L exactly once in lexicographic order of positions, C(len L, k) of them in total, and then stops for good.", "quantifier": "all lists and all k", "why_tests_cant": "unbounded sizes; nested stateful iterators", "anchors": ["ahkab/utilities.py:combinations"]}
{"id": "C230", "title": "The operating points and AC analyses that the program makes obey reciprocity", "statement": "Take a circuit of resistors, capacitors, inductors and couplings of inductors, with other sources only if their value is zero. If one netlist file adds a current source from a node a to ground and another file adds a current source of the same value from a node b to ground, then the voltage that the program reports at b for the first is the voltage that it reports at a for the second, at the operating point and, as a complex number, at each frequency of AC analyses.", "quantifier": "all such circuits, all element values, pairs of nodes, orders of the lines, source values and frequencies", "why_tests_cant": "Reciprocity relates two runs on circuits of any size; it depends on the symmetry of every stamp, of gmin and of the dynamic matrix at once, and a test compares the numbers of single circuits.", "anchors": ["ahkab/ahkab.py:866-975", "ahkab/dc_analysis.py:949-1069", "ahkab/ac.py:146-321", "ahkab/results.py:245-330", "ahkab/results.py:554-712"]}
{"id": "C231", "title": "The node voltages that the program reports for resistive circuits lie between those of the sources", "statement": "Take a netlist file of resistors of positive value, capacitors, inductors, voltage sources to ground and current sources of value zero, whose circuit has one solution. If the values of the voltage sources at time zero lie between lo <= 0 and hi >= 0, each node voltage that the program reports at the operating point lies between lo and hi. So does each voltage reported at a point of a DC sweep at which the values, with that of the swept source, lie between lo and hi.", "quantifier": "all such circuits, all element values, nodes and bounds", "why_tests_cant": "The bound holds for networks of any size and shape by an argument about all nodes at once (a maximum principle); a test sees single dividers. A wrong sign in one stamp breaks it only in some circuits.", "anchors": ["ahkab/ahkab.py:866-975", "ahkab/dc_analysis.py:461-620", "ahkab/dc_analysis.py:949-1069", "ahkab/results.py:245-330"]}
{"id": "C24", "title": "Memoization is transparent and bounded", "statement": "For a function of its arguments only, every call through memoize returns what the function would return, for any call history and any cache limit (including none), the cache never exceeds the limit once a call has returned, and a hit does not re-evaluate the function.", "quantifier": "all call histories, all functions, all limits", "why_tests_cant": "history dependent with evictions", "anchors": ["ahkab/utilities.py:memoize"]}
{"id": "C25", "title": "Changing a device temperature invalidates memoized currents", "statement": "After set_temperature on a diode the next current evaluation reflects the new temperature.", "quantifier": "all histories of evaluations and temperature changes", "why_tests_cant": "requires the cache to be warm at the same bias point", "anchors": ["ahkab/diode.py:diode.set_temperature", "ahkab/diode.py:diode_model.get_i", "ahkab/utilities.py:memoize"]}
{"id": "C26", "title": "Unit suffix conversion", "statement": "convert_units maps <number><suffix><letters> to number times the multiplier of the suffix, case-insensitively; MEG (1e6) and MIL (2.54e-5) are recognised and not confused with M (1e-3); a bare number is itself; trailing unit letters do not change the value; empty strings and unknown suffixes are errors, never silently another value.", "quantifier": "all strings", "why_tests_cant": "infinitely many strings", "anchors": ["ahkab/netlist_parser.py:convert_units"]}
{"id": "C27", "title": "Continuation lines are joined without loss", "statement": "A logical line split in any number of '+' continuation lines parses to the same token list as the unsplit line.", "quantifier": "all lines and split points", "why_tests_cant": "unbounded number of splits", "anchors": ["ahkab/netlist_parser.py:join_lines"]}
{"id": "C28", "title": "Subcircuit expansion preserves the connection graph", "statement": "Expanding an instance connects its ports to precisely the caller's nodes, ground stays ground, internal nodes become fresh nodes that coincide for two elements iff they coincide in the definition, and elements of different instances share internal nodes or part ids never.", "quantifier": "all subcircuit definitions, instances and connection lists", "why_tests_cant": "name mangling must be injective for all names", "anchors": ["ahkab/circuit.py:_circuit_wrapper", "ahkab/netlist_parser.py:parse_sub_instance"]}
{"id": "C29", "title": "References between elements survive subcircuit expansion", "statement": "Inside a subcircuit, a coupling K refers to the inductors of its own instance and F/H sources sense the source of their own instance.", "quantifier": "all subcircuits", "why_tests_cant": "needs hierarchical netlists with controlled sources", "anchors": ["ahkab/netlist_parser.py:parse_sub_instance", "ahkab/netlist_parser.py:parse_elem_inductor_coupling"]}
{"id": "C30", "title": "Element netlist lines parse back to the same element", "statement": "The lines printed by get_netlist_elem_line for the elements of a circuit are accepted by the netlist parser and yield elements with the same names, nodes and references, in the same order, and the same values (the printed lines have six significant digits: values are compared to half a unit of the sixth digit).", "quantifier": "all lists of elements with names the parser can read, all values; initial conditions, options and time functions included", "why_tests_cant": "infinitely many elements", "anchors": ["ahkab/components/Resistor.py", "ahkab/components/Capacitor.py", "ahkab/components/Inductor.py", "ahkab/components/sources/VSource.py", "ahkab/components/sources/ISource.py", "ahkab/netlist_parser.py"]}
{"id": "C31", "title": "Pulse waveform is bounded, periodic and hits its levels", "statement": "For valid parameters the pulse source stays between v1 and v2 at all times, equals v1 before the delay, v2 during the pulse width, is piecewise linear and continuous on the edges and repeats with its period for t>=0.", "quantifier": "all times and parameter values", "why_tests_cant": "continuous time", "anchors": ["ahkab/time_functions.py:pulse"]}
{"id": "C32", "title": "Sinusoid, exponential and AM waveforms start where documented", "statement": "The sinusoid and exponential sources are continuous at their delays, hold the documented constant before them and stay within the documented envelope.", "quantifier": "all times and parameters", "why_tests_cant": "continuous time", "anchors": ["ahkab/time_functions.py:sin", "ahkab/time_functions.py:exp", "ahkab/time_functions.py:am"]}
{"id": "C33", "title": "PWL source passes through its points", "statement": "A piecewise-linear source returns precisely the given ordinate at every given abscissa, interpolates linearly in between, and repeats as documented.", "quantifier": "all point lists and times", "why_tests_cant": "unbounded lists, continuous time", "anchors": ["ahkab/time_functions.py:pwl"]}
{"id": "C34", "title": "User-supplied initial vectors set exactly the named unknowns", "statement": "build_x0_from_user_supplied_ic sets the voltage of each named node and the current of each named voltage-defined element in the unknown which the solver uses for it, every other unknown is zero; unknown names are rejected.", "quantifier": "all circuits and dictionaries", "why_tests_cant": "index arithmetic over all circuits", "anchors": ["ahkab/dc_analysis.py:build_x0_from_user_supplied_ic"]}
{"id": "C35", "title": "Element initial conditions modify only their own unknown", "statement": "Applying the element ICs to an operating point imposes V(n1)-V(n2)=ic for every capacitor/diode IC and I=ic for every inductor IC without altering unrelated unknowns.", "quantifier": "all circuits with ICs", "why_tests_cant": "depends on node numbering incl. ground", "anchors": ["ahkab/dc_analysis.py:modify_x0_for_ic"]}
{"id": "C36", "title": "Result variables are in one-to-one correspondence with the unknowns", "statement": "In each solution object the k-th variable name denotes the k-th unknown; looking a variable up by name (any case) returns that unknown; distinct unknowns have distinct names.", "quantifier": "all circuits", "why_tests_cant": "depends on node and element names", "anchors": ["ahkab/results.py:op_solution", "ahkab/results.py:dc_solution", "ahkab/results.py:tran_solution", "ahkab/csvlib.py:get_headers_index"]}
{"id": "C37", "title": "Data files read back what was written", "statement": "Writing any sequence of sample blocks and loading the file returns, for any selection of headers, exactly the selected columns in the requested order over all the samples in order; missing headers are reported.", "quantifier": "all tables, header selections", "why_tests_cant": "unbounded tables", "anchors": ["ahkab/csvlib.py:write_csv", "ahkab/csvlib.py:load_csv", "ahkab/results.py:_mutable_data"]}
{"id": "C38", "title": "Incremental reading of data files", "statement": "load_csv with skip=k starts at sample k, so chunked reading with skip=pos visits each sample exactly once.", "quantifier": "all chunk sizes", "why_tests_cant": "off-by-one only visible on non-first chunks", "anchors": ["ahkab/csvlib.py:load_csv"]}
{"id": "C39", "title": "Case-insensitive dictionary is a map over case-folded keys", "statement": "After any sequence of updates, looking up a key in any case returns the value of the latest update whose key is equal up to case.", "quantifier": "all update sequences", "why_tests_cant": "history dependent", "anchors": ["ahkab/results.py:case_insensitive_dict"]}
{"id": "C40", "title": "gmin check is symmetric and is a tolerance test", "statement": "The check that compares operating points with and without gmin flags a variable iff the difference exceeds rel*max+abs for its unit, and swapping the two results flags the same variables.", "quantifier": "all pairs of operating points", "why_tests_cant": "real valued", "anchors": ["ahkab/results.py:op_solution.gmin_check"]}
{"id": "C41", "title": "Reported total power is the power delivered by the sources", "statement": "The total power in an OP report equals minus the sum over all the sources of (voltage across)*(current through).", "quantifier": "all circuits and solutions", "why_tests_cant": "index bookkeeping depends on element order", "anchors": ["ahkab/results.py:op_solution._get_elements_op"]}
{"id": "C42", "title": "DC guess assigns each guessed voltage to its node", "statement": "Duplicate or opposite guess equations are removed keeping the first, and after solving the reduced guess system each guessed value is placed at its own node with zeros for the nodes without guess.", "quantifier": "all element lists", "why_tests_cant": "depends on which columns are empty", "anchors": ["ahkab/dc_guess.py:get_dc_guess"]}
{"id": "C43", "title": "Each queued analysis runs exactly once, in order", "statement": "run without a list executes the queued analyses in queue order, each once, and leaves the queue empty; with a list (also an empty one) the caller's list is not modified and the queue is untouched; the result for a type is that of the last analysis of that type.", "quantifier": "all sequences of queue/run calls", "why_tests_cant": "global mutable state over arbitrary histories", "anchors": ["ahkab/ahkab.py:queue", "ahkab/ahkab.py:run"]}
{"id": "C44", "title": "Operating points do not leak between circuits", "statement": "An analysis started from the stored OP uses an OP computed on the same circuit.", "quantifier": "all sequences of runs on several circuits", "why_tests_cant": "global mutable state", "anchors": ["ahkab/ahkab.py:_handle_netlist_ics", "ahkab/ahkab.py:main"]}
{"id": "C45", "title": "Directive parameters are assigned at most once and required ones are enforced", "statement": "Parsing an analysis directive assigns each parameter at most once, honours positional and named forms, fills the defaults of absent optional parameters and fails iff a required one is missing, a token is unknown or repeated.", "quantifier": "all token lists and specifications", "why_tests_cant": "all token orders", "anchors": ["ahkab/netlist_parser.py:parse_single_analysis"]}
{"id": "C46", "title": "Shooting update solves the cyclic linearised system", "statement": "In every iteration of the shooting method the updates of all samples satisfy, around the whole circle of samples, the linearisation of the implicit Euler equation of each sample; samples that are left alone satisfy the equations; without nonlinear elements one iteration from any samples gives the exact solution of the discretised equations; a solution is returned only after four consecutive iterations that pass the convergence test.", "quantifier": "all numbers of points, all matrices with the needed inverses", "why_tests_cant": "unbounded number of points and matrix sizes", "anchors": ["ahkab/shooting.py:_compute_dxN", "ahkab/shooting.py:_compute_dx", "ahkab/shooting.py:shooting_analysis"]}
{"id": "C47", "title": "Shooting closes the loop on the requested period", "statement": "The shooting method closes the loop on the requested period: with sources of period T the value returned at time 0 agrees with the one returned at time T (both are sampled).", "quantifier": "all periods and numbers of points", "why_tests_cant": "off by one step", "anchors": ["ahkab/shooting.py:shooting_analysis", "ahkab/utilities.py:check_step_and_points"]}
{"id": "C48", "title": "Brute-force PSS system is the periodic implicit Euler discretisation", "statement": "The residual of the brute-force method vanishes exactly when the first and the last sample agree and every other sample follows the one before it by an implicit Euler step (sources and nonlinear elements included); each iteration solves its linearisation; without nonlinear elements what is returned is an exact periodic solution, the samples spanning exactly the requested period.", "quantifier": "all sizes and numbers of points", "why_tests_cant": "unbounded block structure", "anchors": ["ahkab/bfpss.py:_build_CMAT", "ahkab/bfpss.py:_build_Tf", "ahkab/bfpss.py:bfpss"]}
{"id": "C49", "title": "Diode conductance is the derivative of its current", "statement": "The small-signal conductance reported by the diode equals the derivative of its current with respect to the voltage; the current is non-decreasing with the voltage.", "quantifier": "all voltages and model parameters", "why_tests_cant": "continuous", "anchors": ["ahkab/diode.py:diode_model.get_gm", "ahkab/diode.py:diode_model._get_i"]}
{"id": "C50", "title": "Diode is passive", "statement": "The diode current is zero at zero voltage and v*i>=0 at all voltages.", "quantifier": "all voltages and parameters", "why_tests_cant": "continuous", "anchors": ["ahkab/diode.py:diode_model._get_i"]}
{"id": "C51", "title": "Quadratic MOS current is symmetric and smooth", "statement": "Exchanging drain and source reverses the current; the current and its vds-derivative are continuous across the ohmic/saturation boundary; the reported gmd is the derivative; n and p devices are mirror images.", "quantifier": "all bias voltages and parameters", "why_tests_cant": "continuous", "anchors": ["ahkab/mosq.py:mosq_mos_model.get_ids", "ahkab/mosq.py:mosq_mos_model.get_gmd", "ahkab/mosq.py:mosq_mos_model.get_voltages"]}
{"id": "C52", "title": "MOS Jacobian stamp in reverse operation", "statement": "With drain and source swapped, the conductance stamp is the normal stamp with the drain and source rows and columns exchanged.", "quantifier": "all biases with vds<0", "why_tests_cant": "needs reverse bias", "anchors": ["ahkab/mosq.py:mosq_device.gstamp"]}
{"id": "C53", "title": "Switch hysteresis and resistance bounds", "statement": "For any input history the switch turns on only above VT+VH and off only below VT-VH, its resistance stays between RON and ROFF, and the result depends on the device state only, not on other devices which share the model.", "quantifier": "all input histories", "why_tests_cant": "state machine", "anchors": ["ahkab/switch.py:vswitch_model._update_status", "ahkab/switch.py:vswitch_model.get_i", "ahkab/switch.py:vswitch_model.get_gm"]}
{"id": "C54", "title": "Tunnel junction is odd and its conductance is the derivative", "statement": "i(-v) = -i(v), i(0)=0 and gm is the derivative of i for |v| below the barrier.", "quantifier": "all voltages below the barrier", "why_tests_cant": "continuous", "anchors": ["ahkab/components/TunnelJunction.py:TunnelJunctionModel"]}
{"id": "C55", "title": "EKV normalised charge/current maps are inverse and monotone", "statement": "q(i) and i(q) are inverse on non-negative values, v(i)=ln q+2q is strictly increasing so the current for a voltage is unique, and exchanging drain and source reverses the current.", "quantifier": "all non-negative currents", "why_tests_cant": "continuous", "anchors": ["ahkab/ekv.py:ekv_mos_model.ismall2qsmall", "ahkab/ekv.py:ekv_mos_model.qsmall2ismall", "ahkab/ekv.py:ekv_mos_model.get_vsmall", "ahkab/ekv.py:ekv_mos_model.get_voltages"]}
{"id": "C56", "title": "FFT size is the smallest power of two that fits", "statement": "For every integer np>=2 the FFT uses the least power of two not below np.", "quantifier": "all integers np>=2", "why_tests_cant": "unbounded", "anchors": ["ahkab/fourier.py:spicefft"]}
{"id": "C57", "title": ".FFT start/stop reach the analysis as given", "statement": "A .FFT directive with start=a stop=b makes the FFT run from a to b.", "quantifier": "all a and b", "why_tests_cant": "data-driven specification table", "anchors": ["ahkab/fourier.py:specs", "ahkab/fourier.py:spicefft"]}
{"id": "C58", "title": "Element lookup by name", "statement": "In a circuit whose part ids differ up to case, lookup by name in any case returns the element with that id, and the duplicate check rejects circuits with two elements with the same id.", "quantifier": "all circuits", "why_tests_cant": "unbounded lists", "anchors": ["ahkab/circuit.py:Circuit.get_elem_by_name", "ahkab/circuit.py:Circuit.has_duplicate_elem", "ahkab/circuit.py:Circuit.find_vde"]}
{"id": "C59", "title": "Failed element insertion leaves the circuit unchanged", "statement": "If an add_* call raises, the circuit (elements and nodes) is as before the call.", "quantifier": "all circuits and invalid arguments", "why_tests_cant": "error paths", "anchors": ["ahkab/circuit.py:Circuit.add_resistor", "ahkab/circuit.py:Circuit.add_capacitor", "ahkab/circuit.py:Circuit.add_diode"]}
{"id": "C60", "title": "Ground path check", "statement": "check_ground_paths returns True only if every node has a DC path to ground through the circuit.", "quantifier": "all circuits", "why_tests_cant": "graph property", "anchors": ["ahkab/utilities.py:check_ground_paths"]}
{"id": "C61", "title": "Nonlinear currents and Jacobian are assembled consistently", "statement": "The nonlinear current vector injects +i at the positive and -i at the negative output node of every port (ground dropped), and the Jacobian is the corresponding sum of conductance stamps, so that the Jacobian times dx is the first-order variation of the current vector.", "quantifier": "all sets of nonlinear elements", "why_tests_cant": "all element lists", "anchors": ["ahkab/dc_analysis.py:build_J_and_Tx", "ahkab/dc_analysis.py:_update_J_and_Tx"]}
{"id": "C62", "title": "Poles are the natural frequencies", "statement": "The poles reported by the pole-zero analysis are exactly the complex numbers p, below options.pz_max in modulus, for which (MNA + 2*pi*p*D) x = 0 has a nonzero solution x, D being the matrix of capacitors and (coupled) inductors.", "quantifier": "all linear circuits of any size, any shift, any number of restarts", "why_tests_cant": "eigenvalue identity over all matrices", "anchors": ["ahkab/pz.py:calculate_singularities"]}
{"id": "C63", "title": "Symbolic and numeric formulations agree", "statement": "When every symbol takes the value of its element, or the elements are not symbolic, the symbolic MNA matrix at s equals the numeric MNA matrix plus s times the dynamic matrix (the MNA matrix alone without AC), and the source vectors are equal; a circuit that the numeric formulation refuses is refused by the symbolic one.", "quantifier": "all linear circuits with well-formed couplings, every choice of symbolic elements, every substitution, all s", "why_tests_cant": "duplicated code, all element lists", "anchors": ["ahkab/symbolic.py:generate_mna_and_N", "ahkab/dc_analysis.py:generate_mna_and_N", "ahkab/transient.py:generate_D"]}
{"id": "C64", "title": "Gmin matrix only touches node voltages", "statement": "The gmin matrix adds the gmin conductance from each node to ground and nothing in the branch equations, so KCL gains precisely gmin*v at each node.", "quantifier": "all circuit sizes", "why_tests_cant": "unbounded size", "anchors": ["ahkab/dc_analysis.py:build_gmin_matrix"]}
{"id": "C65", "title": "A shorted voltage-defined element has no effect on the current balances", "statement": "A voltage source, E/H source or inductor whose two terminals are the same node leaves the KCL equation of that node as if the element were absent (its current enters and leaves the same node).", "quantifier": "all circuits and nodes", "why_tests_cant": "Nothing in the API forbids n1 == n2 and a test would need to enumerate circuits; the assignment order in the stamp decides the result.", "anchors": ["ahkab/dc_analysis.py:generate_mna_and_N"]}
{"id": "C66", "title": "The VCVS law holds wherever its sense nodes are", "statement": "For an E source V(n1)-V(n2)=alpha*(V(sn1)-V(sn2)) in every solution of the assembled system, also when a sense node is one of the output nodes (feedback amplifier, follower).", "quantifier": "all circuits containing E elements", "why_tests_cant": "Depends on coincidences between nodes, which example circuits rarely exercise.", "anchors": ["ahkab/dc_analysis.py:generate_mna_and_N", "ahkab/components/sources/EVSource.py"]}
{"id": "C67", "title": "Time-dependent sources enter the equations with their value at the requested time", "statement": "The system solved at time t (transient, or operating point at t) is the same as that of the circuit where every time-dependent source is replaced by a constant source of the value it takes at t.", "quantifier": "all circuits and all time functions", "why_tests_cant": "quantifies over all time functions", "anchors": ["ahkab/dc_analysis.py:generate_Tt", "ahkab/dc_analysis.py:dc_solve"]}
{"id": "C68", "title": "The operating point of a linear circuit obeys the circuit laws", "statement": "If the operating point analysis of a linear circuit with a regular matrix returns a solution by the standard method, then the currents leaving every node sum to zero and every branch law holds.", "quantifier": "all linear circuits", "why_tests_cant": "all circuits", "anchors": ["ahkab/dc_analysis.py:op_analysis", "ahkab/dc_analysis.py:mdn_solver"]}
{"id": "C69", "title": "A linear circuit is solved exactly whatever the damping options", "statement": "On a linear circuit the result of the Newton solver satisfies the linear system exactly, for all option settings.", "quantifier": "all option settings and linear systems", "why_tests_cant": "options interplay rarely tested", "anchors": ["ahkab/dc_analysis.py:mdn_solver", "ahkab/dc_analysis.py:get_td"]}
{"id": "C70", "title": "Small moves are not damped", "statement": "If in the update every locked port moves by less than the limit, the damping factor is 1.", "quantifier": "all updates and ports", "why_tests_cant": "needs a port with both terminals grounded to fail", "anchors": ["ahkab/dc_analysis.py:get_td", "ahkab/circuit.py:get_locked_nodes"]}
{"id": "C71", "title": "A DC sweep without any solved point returns None and restores the source", "statement": "If no point of the sweep can be solved, dc_analysis returns None and the swept source has its original value.", "quantifier": "all circuits and sweeps", "why_tests_cant": "needs a sweep failing at all points", "anchors": ["ahkab/dc_analysis.py:dc_analysis"]}
{"id": "C72", "title": "The reported error vector is the residual of the reported solution", "statement": "The error returned by the Newton solver is the residual of the equations at the returned solution.", "quantifier": "all nonlinear systems", "why_tests_cant": "tests check only small norms", "anchors": ["ahkab/dc_analysis.py:mdn_solver"]}
{"id": "C73", "title": "The step-control error estimate is the true local error", "statement": "The quantity lte = |x_lte_coeff/(pred_lte_coeff - x_lte_coeff) * (predicted - computed)| by which the transient step control decides is the exact local error on polynomials of degree order+1.", "quantifier": "all grids, all steps, all polynomials of the degree", "why_tests_cant": "identity over all non-uniform grids", "anchors": ["ahkab/transient.py:transient_analysis", "ahkab/trap.py:get_df", "ahkab/gear.py:get_df", "ahkab/implicit_euler.py:get_df"]}
{"id": "C74", "title": "Gear leading coefficient", "statement": "The coefficient C1 of the Gear formula of order k is positive on every increasing time grid (it is the sum of 1/(t - t_j)), so the companion conductance of a capacitor is positive.", "quantifier": "all orders, all grids", "why_tests_cant": "all orders and grids", "anchors": ["ahkab/gear.py:get_df"]}
{"id": "C75", "title": "Step-controlled transient terminates", "statement": "With step control, a positive minimum step not above the first step and a rejection threshold below 1, the time loop ends after finitely many rounds, whatever the Newton solver answers and whatever the error estimates.", "quantifier": "all schedules of solver outcomes", "why_tests_cant": "a non-terminating schedule cannot be observed by a test", "anchors": ["ahkab/transient.py:transient_analysis", "ahkab/transient.py:check_step"]}
{"id": "C76", "title": "Every method can be run with a fixed step and on every interval", "statement": "transient_analysis runs with every built-in differentiation method without step control, and accepts tstart = tstop.", "quantifier": "all methods and intervals", "why_tests_cant": "needs every combination of method, control and interval", "anchors": ["ahkab/transient.py:transient_analysis"]}
{"id": "C77", "title": "The differentiation formulas never lack history", "statement": "In every state reachable by the time loop with a built-in method, the buffer holds the points (and the derivative, for the trapezoidal rule) that the formula and its predictor read: no exception is raised and a prediction is only made when there is a previous point.", "quantifier": "all schedules of accepted and rejected steps, all Gear orders", "why_tests_cant": "unbounded schedules", "anchors": ["ahkab/transient.py:transient_analysis", "ahkab/gear.py:get_df", "ahkab/trap.py:get_df"]}
{"id": "C78", "title": "Every stored transient point solves the circuit", "statement": "If the Newton solver answers points where the circuit equations hold with dx/dt = C1 x + C0, then each stored point satisfies them with the slope computed by the formula from the previously stored points over the actual gap in time (implicit Euler for the first points), also after rejected steps.", "quantifier": "all methods, schedules, circuits", "why_tests_cant": "relates all rejected and accepted steps to the stored history", "anchors": ["ahkab/transient.py:transient_analysis"]}
{"id": "C79", "title": "A full memo cache makes room for new results", "statement": "When the cache of memoize is full, the oldest entry is discarded (as the comment in the code says), so that the new result is cached and the next call with the same arguments is a hit.", "quantifier": "all functions, limits and call histories", "why_tests_cant": "needs a full cache (67 million entries by default) and a count of evaluations", "anchors": ["ahkab/utilities.py:memoize"]}
{"id": "C80", "title": "The delay of a pulse source only shifts the waveform", "statement": "For t >= td >= 0 a pulse source with delay td has the value that the source without delay has at t - td.", "quantifier": "all times and parameters", "why_tests_cant": "needs delays longer than a period, which the test-suite waveforms do not have", "anchors": ["ahkab/time_functions.py:pulse"]}
{"id": "C81", "title": "A netlist source without its optional parameters can be evaluated", "statement": "A time function written in a netlist without one of the parameters marked optional evaluates at every time.", "quantifier": "all token lists accepted for sin, exp, pulse, sffm and am", "why_tests_cant": "needs the default of each table to reach the function", "anchors": ["ahkab/netlist_parser.py:parse_time_function", "ahkab/time_functions.py:time_fun_specs"]}
{"id": "C82", "title": "A PWL source holds its end values", "statement": "Without repetition, a PWL source keeps the ordinate of its last point after it, and that of its first point before it.", "quantifier": "all point lists and times", "why_tests_cant": "needs times outside the listed points for every list", "anchors": ["ahkab/time_functions.py:pwl"]}
{"id": "C83", "title": "End-of-file flag of the data reader", "statement": "load_csv returns EOF=True exactly when all the samples in the file (from skip on) were read.", "quantifier": "all files, numbers of samples", "why_tests_cant": "depends on the number of samples asked for", "anchors": ["ahkab/csvlib.py:load_csv"]}
{"id": "C84", "title": "Pole-zero results are accessible by name", "statement": "After a pole-zero analysis each pole and zero is returned under its name p0, p1, ..., z0, z1, ..., whatever their numbers.", "quantifier": "all lists of poles and zeros", "why_tests_cant": "needs every combination of list lengths", "anchors": ["ahkab/results.py:pz_solution"]}
{"id": "C85", "title": "AC values read back as computed", "statement": "The complex value of an AC unknown read from the solution equals the value that was added, whatever the phase unit option.", "quantifier": "all complex values, both options", "why_tests_cant": "real valued", "anchors": ["ahkab/results.py:ac_solution.add_line", "ahkab/results.py:ac_solution.__getitem__"]}
{"id": "C86", "title": "A switch given VON and VOFF turns on at VON and off at VOFF", "statement": "A switch model built from VON and VOFF (and no VT, VH) turns on only when the control voltage exceeds VON and off only when it falls below VOFF; giving only one of the two is reported as an error of the model.", "quantifier": "all VON, VOFF", "why_tests_cant": "needs the parameter derivation and the hysteresis together", "anchors": ["ahkab/switch.py:vswitch_model.__init__"]}
{"id": "C87", "title": "Switch transconductance is the derivative of its current", "statement": "get_gm of a switch is the derivative of the current through it with respect to the control voltage, for every output voltage.", "quantifier": "all output and control voltages", "why_tests_cant": "continuous", "anchors": ["ahkab/switch.py:vswitch_model.get_gm", "ahkab/switch.py:vswitch_model.get_i"]}
{"id": "C88", "title": "Series resistance and area of a diode agree", "statement": "With a series resistance RS the current reported for a diode is the current that flows through RS, for every area.", "quantifier": "all voltages, areas, parameters", "why_tests_cant": "needs RS and AREA together", "anchors": ["ahkab/diode.py:diode_model.get_i", "ahkab/diode.py:diode_model._obj_irs"]}
{"id": "C89", "title": "Diode conductance does not depend on the evaluation history", "statement": "get_gm of a diode returns the same value for the same voltage, temperature and parameters whatever was evaluated before.", "quantifier": "all evaluation histories", "why_tests_cant": "needs a warm cache and a series resistance", "anchors": ["ahkab/diode.py:diode_model._obj_irs_prime", "ahkab/diode.py:diode_model.get_gm", "ahkab/utilities.py:memoize"]}
{"id": "C90", "title": "MOS gm and gmb are derivatives of the current", "statement": "In every region of operation, for n and p devices, gm and gmb of the quadratic MOS model are the derivatives of the drain current with respect to the gate and bulk voltage.", "quantifier": "all bias voltages and parameters", "why_tests_cant": "continuous", "anchors": ["ahkab/mosq.py:mosq_mos_model.get_gm", "ahkab/mosq.py:mosq_mos_model.get_gmb"]}
{"id": "C91", "title": "Complementary EKV devices are mirror images", "statement": "Negating the type of an EKV transistor and all its voltages negates the current and leaves all (trans)conductances unchanged.", "quantifier": "all bias voltages and parameters", "why_tests_cant": "continuous; p devices at every bias", "anchors": ["ahkab/ekv.py:ekv_mos_model.get_ids", "ahkab/ekv.py:ekv_mos_model.get_gms", "ahkab/ekv.py:ekv_mos_model.get_gmd", "ahkab/ekv.py:ekv_mos_model.get_gmg"]}
{"id": "C92", "title": "The EKV current equation has one solution", "statement": "The equation handed to the Newton iteration for the normalised current has, for every voltage, exactly one zero, the physical current.", "quantifier": "all voltages", "why_tests_cant": "continuous", "anchors": ["ahkab/ekv.py:ekv_mos_model._vsmall_obj", "ahkab/ekv.py:ekv_mos_model.get_ismall"]}
{"id": "C93", "title": "Diode parameters are a function of the temperature", "statement": "After any sequence of temperature changes the parameters IS, BV, RS and the thermal voltage VT of a diode model depend on the final temperature only.", "quantifier": "all sequences of temperatures", "why_tests_cant": "state history", "anchors": ["ahkab/diode.py:diode_model.set_temperature"]}
{"id": "C94", "title": "Device stamps accumulate whatever the wiring", "statement": "For any assignment of terminals to nodes, shared or grounded, stamping a device into the Jacobian and the current vector adds, for every node, the sum of all entries that belong to it.", "quantifier": "all terminal assignments and stamp values", "why_tests_cant": "all wirings", "anchors": ["ahkab/mosq.py:mosq_device.gstamp", "ahkab/mosq.py:mosq_device.istamp", "ahkab/diode.py:diode.istamp", "ahkab/dc_analysis.py:generate_J_and_Tx"]}
{"id": "C95", "title": "Devices with grounded terminals can be simulated", "statement": "A nonlinear device whose terminals are all connected to ground contributes nothing and does not stop the simulation.", "quantifier": "all stamps", "why_tests_cant": "a degenerate wiring", "anchors": ["ahkab/diode.py:diode.istamp", "ahkab/mosq.py:mosq_device.istamp"]}
{"id": "C96", "title": "Operating point report of a MOS agrees with the model", "statement": "The reported ON flag and overdrive of a quadratic MOS device agree with the comparison of gate voltage and threshold used to compute its current.", "quantifier": "all bias voltages, n and p", "why_tests_cant": "p devices at every bias", "anchors": ["ahkab/mosq.py:mosq_device.get_op_info"]}
{"id": "C97", "title": "A MOS device with any threshold can be evaluated", "statement": "The drain current of a quadratic MOS device can be computed for every bias and every threshold voltage.", "quantifier": "all biases and parameters", "why_tests_cant": "needs the threshold to be exactly zero", "anchors": ["ahkab/mosq.py:mosq_mos_model.get_ids"]}
{"id": "C98", "title": "A tunnel junction is passive", "statement": "The current through a tunnel junction never flows against the applied voltage, for all voltages up to the barrier.", "quantifier": "all voltages up to the barrier, all parameters", "why_tests_cant": "continuous", "anchors": ["ahkab/components/TunnelJunction.py:TunnelJunctionModel._get_i"]}
{"id": "C99", "title": "EKV pinch-off voltage", "statement": "The pinch-off voltage is a continuous function of the gate voltage, never below -PHI, and where the device conducts its slope is 1/n with the slope factor n = 1 + GAMMA/(2 sqrt(PHI+VP)).", "quantifier": "all gate voltages and physical parameters", "why_tests_cant": "continuous", "anchors": ["ahkab/ekv.py:ekv_mos_model.get_VP", "ahkab/ekv.py:ekv_mos_model.get_nv"]}
