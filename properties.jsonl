{"id": "C01", "title": "Matrix storage: one private cell per in-envelope entry", "statement": "After any history of connection declarations (iwant) followed by allocate, every declared entry, its transpose and every diagonal entry is inside the envelope; each in-envelope (row,column) is backed by exactly one cell of the allocated block, no two different entries share a cell, no cell lies outside the block, and the reported number of cells equals the number of in-envelope entries (plus the ground cell).", "quantifier": "every matrix size, every finite sequence of iwant calls with arguments in 0..size (ground included), every pair of entries", "why_tests_cant": "A test allocates a handful of shapes; aliasing or an out-of-block cell appears only for particular envelope shapes, and the number of shapes is factorial in the size.", "anchors": ["include/m_matrix.h: BSMATRIX_DATA::init, iwant, allocate, d, u, l, m, s"]}
{"id": "C02", "title": "Stamping equals the dense sum of contributions", "statement": "After zero() and any sequence of load_point / load_diagonal_point / load_couple / load_symmetric / load_asymmetric calls whose non-ground pairs were declared, reading entry (r,c) gives exactly the sum of the contributions the calls make to (r,c) in an ordinary dense matrix; ground rows and columns receive nothing, undeclared entries read 0, and (in exact arithmetic) the order of the calls does not matter.", "quantifier": "every size, every envelope, every finite sequence of load calls with any node arguments including ground and repeated nodes, every entry", "why_tests_cant": "Sign and ground handling of the stamps interact; only finitely many netlists can be tried.", "anchors": ["include/m_matrix.h: load_point, load_diagonal_point, load_couple, load_symmetric, load_asymmetric, zero, s"]}
{"id": "C03", "title": "Factorisation reproduces the matrix", "statement": "After lu_decomp, multiplying the stored lower factor by the stored unit-upper factor gives back the loaded matrix at every entry, except that where a pivot came out zero it was replaced by min_pivot and the product differs at that diagonal entry by exactly min_pivot; no entry outside the envelope is ever needed.", "quantifier": "every size, every envelope, every loaded matrix over a field, every entry", "why_tests_cant": "The recurrence is nested over the whole envelope; a wrong band limit shows only for particular profiles.", "anchors": ["include/m_matrix_solver.h: LU_COPY::lu_decomp, subtract_dot_product", "include/m_matrix.h"]}
{"id": "C04", "title": "Forward/back substitution solves the loaded system", "statement": "When no pivot was zero, fbsub(v) replaces the right-hand side by the solution of the loaded system, for either calling form: the in-place form and the three-vector form (which skips leading zeros of the right-hand side) give the same solution, and the ground entry of the result is 0.", "quantifier": "every size, envelope, matrix over a field with nonzero pivots, right-hand side (with any number of leading zeros)", "why_tests_cant": "The three-vector form has a data-dependent starting row; tests cannot cover all sparsity patterns of right-hand sides.", "anchors": ["include/m_matrix.h: fbsub(T*), fbsub(T*,const T*,T*)", "include/m_matrix_solver.h"]}
{"id": "C05", "title": "Transposed substitution solves the transposed system", "statement": "fbsubt(v), used by noise analysis on the same factors, yields the solution of the transposed loaded system.", "quantifier": "every size >= 1, envelope, matrix with nonzero pivots, right-hand side", "why_tests_cant": "The transposed recurrences read the factors in the other order; agreement on samples does not establish it for all profiles.", "anchors": ["include/m_matrix.h: fbsubt"]}
{"id": "C06", "title": "Partial refactorisation is bit-identical to full refactorisation", "statement": "If the factors were produced by a factorisation and afterwards the matrix is changed only through load_* calls, then factoring again with the 'only what changed' option gives bit for bit the same factors as factoring everything, for any number representation (no algebraic law is used, so it holds for IEEE doubles).", "quantifier": "every size, envelope, arithmetic (arbitrary operations), previous matrix, finite sequence of load_* calls between factorisations, any number of rounds", "why_tests_cant": "Depends on which subset of rows was touched and how change propagates through the envelope: exponentially many subsets.", "anchors": ["include/m_matrix_solver.h: LU_COPY::lu_decomp(bool)", "include/m_matrix.h: set_changed, is_changed, load_*"]}
{"id": "C07", "title": "In-place and two-matrix factorisation agree", "statement": "Factoring in place (the LU_INPLACE solver, used where only one matrix exists) gives bit for bit the same factors as factoring into a second matrix.", "quantifier": "every size, envelope, arithmetic, loaded matrix", "why_tests_cant": "In-place needs that no source entry is read after being overwritten; a single wrong loop order is invisible on banded samples.", "anchors": ["include/m_matrix_solver.h: LU_INPLACE::lu_decomp, LU_COPY::lu_decomp"]}
{"id": "C08", "title": "Incremental matrix loading equals a full reload", "statement": "With noise suppression off (roundofftol = 0) and exact arithmetic, after every load phase the matrix and right-hand side equal gmin on the diagonal plus the full stamps of every device's last loaded values, whether the phase reloaded everything or only added the differences of the queued devices, under any damping factors and any mixture of the two modes.", "quantifier": "every set of devices, every finite history of evaluations, damping factors, inc/full decisions and queue contents", "why_tests_cant": "The error of a lost or doubled increment accumulates over iterations and depends on the whole history.", "anchors": ["include/e_elemnt.h: dampdiff, tr_load_passive, tr_load_active, tr_load_shunt, tr_load_source, tr_load_couple, tr_load_extended, tr_load_point, tr_load_inode", "apps/s__solve.cc: clear_arrays, load_matrix"]}
{"id": "C09", "title": "Every solution comes from the current matrix", "statement": "In the iteration loop, whatever the sequence of incremental-mode decisions (first iteration, iteration limit, 'bad' mode, option changes) and of partial-factorisation permissions, the factors used to compute the node voltages are exactly the factors of the matrix as loaded in that iteration; so the returned voltages solve the current linear system.", "quantifier": "every finite sequence of iterations, each with any inc-mode state, option settings and set of load calls", "why_tests_cant": "Stale factors would need a particular interleaving of full clears (which do not mark rows changed) and partial factorisations.", "anchors": ["apps/s__solve.cc: set_flags, clear_arrays, load_matrix, solve_equations", "include/u_sim_data.h: mark_inc_mode_bad, set_inc_mode_*", "include/m_matrix_solver.h"]}
{"id": "C10", "title": "Internal node numbering is a permutation fixing ground", "statement": "Each ordering option (reverse, forward, auto) numbers the nodes so that ground stays 0, every other node gets a distinct number in 1..total, every number is used, and the recorded user number of the internal slot is the original node.", "quantifier": "every node count, every ordering option, every node", "why_tests_cant": "A collision silently short-circuits two nodes; only small circuits can be enumerated.", "anchors": ["lib/u_sim_data.cc: map__nodes, order_reverse, order_forward, order_auto, alloc_hold_vectors"]}
{"id": "C11", "title": "Subcircuit expansion connects ports and isolates internals", "statement": "Expanding a subcircuit instance maps each formal port to the node the instance is connected to, the formal ground to ground, each internal node to a node that existed nowhere before and is distinct from all others, and leaves the total node count increased by exactly the number of internal nodes; repeated and nested expansions never share internal nodes.", "quantifier": "every prototype (ports, internals, device connections), every instance connection list, every sequence of expansions", "why_tests_cant": "Accidental sharing needs particular nesting and counts; the property speaks about all of them.", "anchors": ["lib/e_cardlist.cc: CARD_LIST::map_subckt_nodes", "lib/e_node.cc: node_t::map_subckt_node", "include/u_sim_data.h: newnode_subckt"]}
{"id": "C12", "title": "Node names and numbers correspond one to one", "statement": "In a node map, ground is named 0; looking up or creating names in any order gives each distinct name its own number, numbers are dense from 1 in order of first use, a repeated name always returns the same node, and a lookup without creation never changes the map.", "quantifier": "every finite history of new-node and lookup requests over arbitrary names", "why_tests_cant": "History dependent over unbounded names.", "anchors": ["lib/u_nodemap.cc: NODE_MAP::new_node, operator[]", "include/u_nodemap.h"]}
{"id": "C13", "title": "Wildcard name matching", "statement": "A wildcard pattern (? one character, * any run, other characters case-insensitively) matches a label exactly when the label can be obtained from the pattern by replacing each * by the run of characters the documentation promises and each ? by one character.", "quantifier": "every label and pattern", "why_tests_cant": "The matcher is a recursive search with three-way branching; the claim is about all strings.", "anchors": ["lib/l_wmatch.cc: wmatch"]}
{"id": "C14", "title": "Command scanner never leaves its line and failed matches consume nothing", "statement": "Whatever sequence of scanning operations is applied to a command line, the cursor stays between the start and one past the end of the text, no character outside the text is read, and every operation that reports failure leaves the cursor exactly where it was.", "quantifier": "every line and every finite sequence of scanner calls", "why_tests_cant": "Scanner state after arbitrary call sequences is unbounded.", "anchors": ["include/ap.h: CS", "lib/ap_skip.cc", "lib/ap_match.cc", "lib/ap_convert.cc"]}
{"id": "C15", "title": "Keyword abbreviation matching", "statement": "A keyword pattern such as 'tr{ansient} ' matches exactly the inputs that spell the mandatory letters followed by any prefix of the optional letters, case-insensitively, and then end at a word boundary; on a match the cursor is left after the word and its trailing separators.", "quantifier": "every pattern of that form and every input line", "why_tests_cant": "All prefixes of all patterns against all inputs.", "anchors": ["lib/ap_match.cc: CS::umatch, CS::match1", "lib/l_pmatch.cc: Umatch"]}
{"id": "C16", "title": "Integer and boolean input have their documented values", "statement": "Scanning the decimal text of any integer whose magnitude fits in an int returns that integer and stops right after the digits and one separator; unsigned decimal text gives its value modulo 2^32, octal and hexadecimal text (either case) that fits gives its base 8 or 16 value, a shortened or full word for true or false gives its meaning, and any other text read as a boolean is true and is not consumed.", "quantifier": "every integer in range, every following text that does not continue the number", "why_tests_cant": "Range is 2^32 per context and contexts are unbounded.", "anchors": ["lib/ap_convert.cc: CS::ctoi, CS::ctou"]}
{"id": "C17", "title": "Numeric input with scale suffixes has its documented value", "statement": "Scanning sign, digits, optional fraction, optional exponent and optional engineering suffix gives mantissa * 10^exponent * suffix factor exactly (before rounding), and scanning stops after the number and any alphabetic units.", "quantifier": "every digit string, every exponent, every suffix", "why_tests_cant": "Unbounded digit strings; suffix and exponent interact.", "anchors": ["lib/ap_convert.cc: CS::ctof, ctopf"]}
{"id": "C18", "title": "Trimming removes exactly the trailing blanks", "statement": "trim shortens the string in a buffer to its longest prefix that is empty or ends in a visible character; that prefix is unique, trimming twice is trimming once, and nothing after the string in the buffer changes.", "quantifier": "every string without NUL, every buffer content after it", "why_tests_cant": "All strings.", "anchors": ["lib/l_trim.cc: trim"]}
{"id": "C19", "title": "Constant folding preserves the value of an expression", "statement": "Reducing an expression in a scope yields an expression that, under every assignment of the remaining names, evaluates to the same value as the original (in exact arithmetic), including the rewrites that move constants across + and * and the inlining of definitions; an expression that has a value of its own reduces to that constant once the recursion limit is large enough, unless an integer operation overflows. The exception is a unary operator applied to an open name, which loses its operator.", "quantifier": "every expression tree and every environment", "why_tests_cant": "Rewrites fire on shapes of unbounded depth.", "anchors": ["lib/m_expression_reduce.cc: Token_BINOP::stack_op, Token_UNARY::stack_op, Expression::reduce_copy"]}
{"id": "C20", "title": "Typed arithmetic agrees with arithmetic on values", "statement": "For integer and real operands in every combination, the result of an arithmetic, comparison or logical operator has the numeric value (and the integer or real kind) of the operator applied to the operand values in the written order, in every double arithmetic whose + and * commute and in particular in IEEE binary64; the one exception is integer % real, which the code evaluates with its operands reversed. Strings compare lexicographically, only quoted strings concatenate, and numbers never combine with strings.", "quantifier": "all operators, all operand type combinations, all values for which the result is defined", "why_tests_cant": "The double dispatch has one reversed method per type pair and operator; value space is infinite.", "anchors": ["include/m_base.h: Float, Integer r_* methods", "lib/m_base_math.cc"]}
{"id": "C21", "title": "Parameter lookup follows scope and reports cycles", "statement": "Inside a subcircuit instance a name means the value passed to that instance, evaluated in the scope of the caller and converted to the declared type; a name not passed (or passed as NA) means the definition given in the subcircuit; any other name is open. A parameter declared with a type only ever has values of that type: the value of its expression, converted. A definition that refers to itself through any chain of names is never given a value: its evaluation ends with an error. A value that is found does not depend on the recursion limit.", "quantifier": "every nesting of scopes, every set of definitions", "why_tests_cant": "Cycles and shadowing of unbounded depth.", "anchors": ["lib/u_parameter.cc: PARAM_LIST::deep_lookup, operator[]", "include/u_parameter.h: PARAMETER<T>::lookup_solve, e_val"]}
{"id": "C22", "title": "Plugin dispatcher registration", "statement": "After any history of installs and uninstalls, looking a name up returns the object of the most recent install of that name, or nothing once that object has been uninstalled or if there was none; installing never makes an object unreachable, since the object it replaces stays reachable under a stashed name.", "quantifier": "every finite history of install, uninstall and lookup with arbitrary '|'-separated name lists", "why_tests_cant": "History dependent over unbounded names.", "anchors": ["lib/l_dispatcher.cc: DISPATCHER_BASE::install, uninstall, operator[]", "include/l_dispatcher.h"]}
{"id": "C23", "title": "Transient time advances and never skips an event", "statement": "Each accepted time point is later than the previous accepted one, never passes the next scheduled event or the user's next output time, and after a rejection the retry is strictly earlier than the rejected point and strictly later than the last accepted one; if no such time exists the simulator stops with an error rather than looping.", "quantifier": "every finite history of step proposals, error estimates, events, convergence failures and option values", "why_tests_cant": "Interplay of four competing limits over unbounded histories.", "anchors": ["apps/s_tr_swp.cc: TRANSIENT::next, TRANSIENT::review, TRANSIENT::sweep"]}
{"id": "C24", "title": "Scheduled events come out in time order and not early", "statement": "Events are handed out in nondecreasing time order, none is lost or duplicated, an event is never moved earlier than its requested time by as much as half a minimum step, and one requested within a minimum step of now is not moved before its request.", "quantifier": "every finite history of event requests and removals, every minimum step", "why_tests_cant": "Priority queue histories are unbounded.", "anchors": ["include/u_sim_data.h: SIM_DATA::new_event", "apps/s_tr_swp.cc"]}
{"id": "C25", "title": "The binding time limit is the minimum over all devices", "statement": "The time limits the circuit reports are exactly the smallest error-estimate limit and the smallest event limit over all devices, and 'never' when no device has one.", "quantifier": "every list of devices and reported limits", "why_tests_cant": "Any number of devices in any order.", "anchors": ["include/u_time_pair.h: TIME_PAIR", "lib/e_cardlist.cc: CARD_LIST::tr_review"]}
{"id": "C26", "title": "DC sweep visits the documented points", "statement": "A linear sweep from start to stop by step visits start, start+step, ... in order, ends with the last grid point not beyond stop (within a tenth of a step), reaches stop when it is on the grid, and terminates; with loop it then comes back through the same points; a factor sweep visits start*step^k likewise; nested sweeps visit the full product with the inner one fastest.", "quantifier": "every start, stop and nonzero step in either direction, every nesting depth up to the limit", "why_tests_cant": "Floating grids of arbitrary length.", "anchors": ["apps/s_dc.cc: DCOP::first, next, fix_args, sweep_recursive"]}
{"id": "C27", "title": "AC sweep frequency points", "statement": "A linear AC sweep visits start, start+step, ... and stops at the first point that reaches stop (less a hundredth of a step); the number of points is finite, every frequency but the last lies before stop and the last is less than a step past it; the lin option gives exactly n evenly spaced points from start to stop; log sweeps visit start*step^k likewise.", "quantifier": "every start, stop, step", "why_tests_cant": "Unbounded grids.", "anchors": ["apps/s_ac.cc: AC::first, next"]}
{"id": "C28", "title": "Table interpolation", "statement": "Interpolating a table sorted by strictly increasing key returns each stored value exactly at its key, lies on the straight line between neighbouring points in between, follows the requested end slope outside (or the end segment when none is given), is continuous, and reports its slope consistently with its value; an empty or unsorted neighbourhood is an error, not a number.", "quantifier": "every table, every argument, every end-slope choice", "why_tests_cant": "Any table length; binary search boundary cases.", "anchors": ["include/m_interp.h: interpolate"]}
{"id": "C29", "title": "Re-running an analysis does not change a piecewise-linear source", "statement": "However many times a piecewise-linear source with two or more points is re-prepared (once per analysis command or sweep point), with unchanged parameters its value and slope at every time are the ones given by its points, and the event it announces is its next corner.", "quantifier": "every point list of two or more points, every number of preparations, every time", "why_tests_cant": "Depends on the number of earlier analyses in the session.", "anchors": ["apps/bm_pwl.cc: EVAL_BM_PWL::precalc_last, tr_eval", "lib/e_compon.cc: COMPONENT::precalc_last", "include/m_interp.h"]}
{"id": "C30", "title": "Delay line reproduces its input later", "statement": "A wave delay line driven at increasing times returns, at time t, the input of time t minus the delay linearly interpolated between the pushed samples, holds the end values outside, and reflection returns twice the total minus the incident wave.", "quantifier": "every delay, every finite increasing sequence of samples, every time", "why_tests_cant": "Unbounded sample histories.", "anchors": ["include/m_wave.h: WAVE::push, v_out, v_reflect", "include/m_interp.h"]}
{"id": "C31", "title": "Divided-difference derivatives are those of the interpolating polynomial", "statement": "The derivative estimates used for truncation error are, for data sampled from any polynomial of the order used, the exact k-th derivatives (leading one), for every spacing of distinct times.", "quantifier": "every order, every set of distinct time points, every polynomial", "why_tests_cant": "Arbitrary nonuniform spacing.", "anchors": ["include/m_divdiff.h: derivatives"]}
{"id": "C32", "title": "First-order polynomial forms convert without change of meaning", "statement": "Converting between the (x,f0,f1) and (x,c0,c1) forms is a round trip and both forms denote the same straight line; scaling, negating, adding a constant and adding forms gives the form of the scaled, negated and added functions at the same point.", "quantifier": "every form and operand", "why_tests_cant": "All values.", "anchors": ["include/m_cpoly.h: FPOLY1, CPOLY1"]}
{"id": "C33", "title": "Integration formulas are consistent", "statement": "For charge varying linearly in time every method returns the exact current at every attempt of every step; for quadratics Gear on equal steps is exact and trapezoidal repeats the previous error with opposite sign (so stays exact once exact); and the conductance contributed equals the derivative of the returned current with respect to the newest charge, so the linearisation used in the matrix matches the formula used for the current.", "quantifier": "every method, every history of times with positive steps, every charge polynomial of the stated degree", "why_tests_cant": "Continuum of step sizes.", "anchors": ["lib/e_storag.cc: STORAGE::differentiate, tr_c_to_g, method_select"]}
{"id": "C34", "title": "Truncation-error step proposal is usable", "statement": "The step proposal derived from truncation error makes the estimated error equal to the tolerance, using the highest derivative the distinct stored times allow; it is never below the minimum step, the proposed time is always after the previous accepted time, and it lies before the current time exactly when the step falls below the rejection ratio.", "quantifier": "every error estimate, step, and option value", "why_tests_cant": "Continuum.", "anchors": ["lib/e_elemnt.cc: ELEMENT::tr_review_trunc_error, tr_review_check_and_convert"]}
{"id": "C35", "title": "Element history advances and regresses consistently", "statement": "After any number of time steps, each with any number of rejected attempts, an element holds exactly the last accepted times, values and currents, and every attempt starts from the node voltages of the last accepted point and measures its step from it.", "quantifier": "every finite history of advance / regress", "why_tests_cant": "Histories are unbounded.", "anchors": ["lib/e_elemnt.cc: ELEMENT::tr_advance, tr_regress, dc_advance, tr_begin", "lib/e_storag.cc: STORAGE::tr_advance"]}
{"id": "C36", "title": "Pulse source corners are always announced", "statement": "A pulse source's value is initial before the delay, rises linearly, stays, falls linearly and repeats; whenever it announces its next event, its waveform is a straight line from now (plus two minimum steps) until that event, provided the pulse fits in its period or does not repeat.", "quantifier": "every parameter set, every time", "why_tests_cant": "Continuum of parameters and times.", "anchors": ["apps/bm_pulse.cc: EVAL_BM_PULSE::tr_eval, tr_review"]}
{"id": "C37", "title": "Polynomial source value and slope", "statement": "With at least one coefficient, the polynomial function's value is the sum of coefficient times power, its slope is the exact derivative, and clamping to limits keeps the value within them with zero slope when clamped.", "quantifier": "every coefficient list and argument", "why_tests_cant": "Any degree.", "anchors": ["apps/bm_poly.cc: EVAL_BM_POLY::tr_eval"]}
{"id": "C38", "title": "Switch hysteresis", "statement": "In a transient the state of a switch is the hysteresis of the accepted control values: it turns on only when its control reaches the on threshold, off only when it reaches the off threshold, otherwise keeps its state, and its resistance always is the one of its state; a rising control turns it on at most once and never off.  At the operating point the thresholds themselves are excluded.", "quantifier": "every finite control history, every pair of thresholds", "why_tests_cant": "History dependent.", "anchors": ["apps/d_switch.cc: SWITCH_BASE::do_tr, tr_advance, tr_review"]}
{"id": "C39", "title": "Logic gates compute their boolean function", "statement": "On stable inputs the gates compute the boolean function of their name, the result of and, or, xor and their inverses does not depend on the order of inputs, a controlling input decides the output whatever the others are (unknown included), and inversion exchanges rising with falling.", "quantifier": "every gate type, any number of inputs in any order and state", "why_tests_cant": "Input counts and permutations.", "anchors": ["lib/e_logicval.cc: and_truth, or_truth, xor_truth, not_truth, prop_truth", "apps/d_logic.cc: LOGIC_*::logic_eval"]}
{"id": "C40", "title": "Maximum / minimum measurement", "statement": "The measured maximum (minimum) over a window is attained by some recorded point of the window, bounds all of them, and the reported position is the first or last such point as requested.", "quantifier": "every waveform and window", "why_tests_cant": "Any waveform.", "anchors": ["apps/measure_max.cc", "apps/measure_min.cc"]}
{"id": "C41", "title": "Crossing measurement", "statement": "A reported crossing time lies between two consecutive recorded points that straddle the level in the requested direction, the straight line through them has the level at that time, it is the first (or last) such crossing, and nothing is reported only when there is none.", "quantifier": "every waveform, level, direction and window", "why_tests_cant": "Any waveform.", "anchors": ["apps/measure_cross.cc"]}
{"id": "C42", "title": "Integral, average and rms measurements", "statement": "The integral of a recorded waveform over a window is the trapezoidal sum over its points: exact for straight lines, additive over adjacent windows sharing a point, linear in the waveform; average is the integral over the duration and lies between any bounds of the values; the square of the rms value is the average of the squares and is at least the square of the average.", "quantifier": "every waveform with at least one point in the window (for average and rms, at least two of different times)", "why_tests_cant": "Any waveform.", "anchors": ["apps/measure_integral.cc", "apps/measure_average.cc", "apps/measure_rms.cc"]}
{"id": "C43", "title": "FFT equals the discrete Fourier transform", "statement": "For every power-of-two length the transform leaves in place exactly the discrete Fourier transform of the input (scaled by 1/n in the forward direction), and the inverse undoes the forward one.", "quantifier": "every k, every complex vector of length 2^k", "why_tests_cant": "Every length and vector.", "anchors": ["lib/m_fft.cc: fft", "apps/s_fo.cc: to_pow_of_2"]}
{"id": "C44", "title": "Fourier point count is the next power of two", "statement": "The number of samples used is a power of two above the requested number, and the smallest such (a request that is a power of two itself is doubled).", "quantifier": "every requested count", "why_tests_cant": "All integers.", "anchors": ["apps/s_fo.cc: to_pow_of_2"]}
{"id": "C45", "title": "Shared component data is freed exactly once", "statement": "Under any sequence of attach and detach of shared component data the use count equals the number of holders, data is freed exactly when the last holder lets go, no holder ever refers to freed data, and static prototypes are never freed.", "quantifier": "every finite history of attach, replace, detach over any number of holders and objects", "why_tests_cant": "Histories unbounded; use-after-free needs a special order.", "anchors": ["lib/e_compon.cc: COMMON_COMPONENT::attach_common, detach_common"]}
{"id": "C46", "title": "Output stream sets behave as sets", "statement": "Attaching and detaching output destinations behaves as union and difference of sets of files, one handle per file; text sent goes exactly once to each attached file.", "quantifier": "every finite history of attach and detach over at most 30 files", "why_tests_cant": "All histories.", "anchors": ["include/io_.h: OMSTREAM", "lib/io_out.cc"]}
{"id": "C47", "title": "Parameters set by name land on the listed parameter", "statement": "For each name a device lists for one of its own parameters, and for the system parameters $mfactor, $xposition, $yposition and $zposition, setting that name sets the parameter listed at that position and no other (so printing and re-reading a netlist keeps it); setting by position does the same for every position. (The other four system names do not: shown separately.)", "quantifier": "every listed name", "why_tests_cant": "Each device type has its own tables; correspondence is global.", "anchors": ["lib/e_compon.cc: COMPONENT::set_param_by_name, param_name, param_value, set_hsparam"]}
{"id": "C48", "title": "A file is read as its logical lines", "statement": "Reading a file until end of input returns its logical lines in order: a line ending in a backslash, or followed (after white space) by a line starting with '+', is joined to the next one with a single blank, trailing blanks go, blank lines and indentation between logical lines vanish, and nothing else is lost or invented.", "quantifier": "every file made of any number of logical lines, each of any number of physical lines no longer than the line buffer", "why_tests_cant": "Continuation, look-ahead and trimming interact over unbounded sequences of lines.", "anchors": ["lib/ap_construct.cc: getlines, CS::get_line", "lib/l_trim.cc: trim"]}
{"id": "C49", "title": "Output text is kept and lines fit", "statement": "Whatever strings are sent to a file and whatever the line width, the file receives exactly their text with nothing but continuation breaks (newline and plus sign) put in, no line reaches the width unless a single string does not fit on a line by itself, and tabbing ends at the requested column.", "quantifier": "every finite sequence of strings, every width", "why_tests_cant": "Layout state carries over between strings; sequences are unbounded.", "anchors": ["lib/io_out.cc: OMSTREAM::operator<<(const char*), operator<<(char), tab"]}
{"id": "C50", "title": "DC sweep in reverse", "statement": "A DC sweep in reverse visits the points of the forward sweep in the opposite order.", "quantifier": "every start, stop and step", "why_tests_cant": "Floating grids of arbitrary length.", "anchors": ["apps/s_dc.cc: DCOP::first, next"]}
{"id": "C51", "title": "Changed piecewise-linear points are honoured", "statement": "When the points of a piecewise-linear source are changed between analyses, its value at every time is the one given by the new points.", "quantifier": "every pair of point lists, every time", "why_tests_cant": "Depends on the earlier analyses in the session.", "anchors": ["apps/bm_pwl.cc: EVAL_BM_PWL::precalc_last"]}
{"id": "C52", "title": "Product of first-order forms", "statement": "Multiplying two first-order forms at the same point gives the form of the product: the product of the values and the slope f1*s0 + f0*s1.", "quantifier": "every pair of forms", "why_tests_cant": "All values.", "anchors": ["include/m_cpoly.h: FPOLY1::operator*="]}
{"id": "C53", "title": "Choice of integration method", "statement": "A method marked only, given locally or as an option, wins over one that is not (local first); otherwise a locally given method wins over the option, and the option is used when nothing is given locally.", "quantifier": "every combination of local and global choice", "why_tests_cant": "The table is data; tests try a few entries.", "anchors": ["lib/e_storag.cc: STORAGE::method_select"]}
{"id": "C54", "title": "Digital outputs move when their event is due", "statement": "A digital output given an event is marked as moving to the new value, keeps its old value until the event time and has the new value from then on; its voltage is a straight ramp of the rise or fall time ending at the event time, always between the two levels; going back to before a transition made at its event time undoes it exactly.", "quantifier": "every node state, model, event and time", "why_tests_cant": "Times and histories are unbounded.", "anchors": ["lib/e_logicnode.cc: LOGIC_NODE::set_event, propagate, unpropagate, to_analog", "apps/d_logic.cc: DEV_LOGIC::tr_advance, tr_regress, tr_accept"]}
{"id": "C55", "title": "Reading a logic value from a voltage", "statement": "In a transient a voltage at or above the upper threshold reads as 1, at or below the lower threshold as 0, between them as rising or falling by its direction, unchanged if it does not move; the quality of a node stays between bad and good; and a stable digital output is read back as itself when the low level is 0 volts.", "quantifier": "every model, node state and pair of voltages", "why_tests_cant": "Real-valued inputs and unbounded histories.", "anchors": ["lib/e_logicnode.cc: LOGIC_NODE::to_logic, to_analog"]}
{"id": "C56", "title": "Slew rate measurement", "statement": "The measured slew rate is the difference of the two levels divided by the time from where the waveform crosses the start level to where it then crosses the stop level without returning below the start level, of the first such passage in the window; the reserved number is given only when there is none, and the internal assertion never fails.", "quantifier": "every waveform with increasing times, every pair of different levels in either direction, every window", "why_tests_cant": "Any waveform.", "anchors": ["apps/measure_slewrate.cc"]}
{"id": "C57", "title": "Ports of a subcircuit header", "statement": "Reading a subcircuit header whose last name is a new one gives exactly the distinct names, ground left out, in order of first appearance, as ports numbered 1, 2, ..., which is the numbering that flattening relies on.", "quantifier": "every list of names, both settings of case sensitivity", "why_tests_cant": "Any list of names; a stray port only shows when the subcircuit has internal nodes.", "anchors": ["apps/lang_spice.cc: LANG_SPICE_BASE::parse_ports", "lib/e_compon.cc: COMPONENT::set_port_by_index", "lib/e_node.cc: node_t::new_node"]}
{"id": "C58", "title": "A solve uses the gmin option in force", "statement": "In exact arithmetic, every solve that does not start in incremental mode (the first of an analysis, every step of the gmin homotopy, every solve with incmode off) has exactly the current gmin on the diagonal in all its iterations. The last solve of the homotopy is not one of these: it restores gmin but not the mode, and can converge to the solution of the circuit with the homotopy's leakage (refuted).", "quantifier": "every circuit, every history of solves and resets, every behaviour of the devices", "why_tests_cant": "The stale diagonal needs a circuit that fails to converge, then a homotopy that ends on its iteration count; the converged answer looks plausible.", "anchors": ["apps/s__solve.cc: solve_with_homotopy (96-129), set_flags (182-202), clear_arrays (204-213)", "include/u_sim_data.h: set_inc_mode_no, mark_inc_mode_bad"]}
{"id": "C59", "title": "Every solve ends", "statement": "Whatever the devices do, a solve makes at least one and at most itl+1 passes, makes all of them if it does not converge, accesses no array out of bounds, leaves the load queue empty and adds its passes to the total; the homotopy around it ends too. It stops as converged exactly at the first pass that completes itermin+1 passes in a row in which every device was satisfied and none limited a voltage.", "quantifier": "every circuit, every device behaviour including never converging, every option setting with itl >= 0", "why_tests_cant": "Non-termination depends on device behaviour of unbounded length.", "anchors": ["apps/s__solve.cc: solve (42-94), solve_with_homotopy (96-129)"]}
{"id": "C60", "title": "A printed number is read back as the number, to the digits asked for", "statement": "Printing a number with len digits (between 3 and 33) never overruns its buffer and gives at most len+6 characters. Any reader of numbers, in either unit mode and whatever stands before it on the line, takes exactly that text when a blank, a tab, a comma or the end of the line follows, and gets a value that differs from the number by at most half a unit of the last digit kept. A number that has no more digits than that is read back exactly, numbers under 1e-99 as zero, and printing the value read back gives the same text unless zero filling is on or the number is at the top of the range. With a field width of at least len+6 the text is the same, padded with blanks to exactly that width.", "quantifier": "every number, every format, every length 3..33, every position on the line, both unit modes", "why_tests_cant": "The printer chooses between fixed notation, scale letters and exponents by magnitude and shortens the digits accordingly; tests sample a few magnitudes.", "anchors": ["lib/l_ftos.cc: to_string (63-66), ftos (68-264)", "lib/ap_convert.cc: CS::ctof", "include/m_base.h: Float::val_string (312)"]}
{"id": "C61", "title": "Expressions are read as the tree they are written for, and printing can be read back", "statement": "For every text written by the rules of the expression language (names, numbers, quoted strings, function calls, arrays, parentheses, signs, the operators with their five precedences associating to the left, and the conditional), at any place on a line and followed by anything that cannot continue an expression, the parser consumes exactly that text and produces the tokens of the one tree the text stands for. On any other line it stops, either with an exception or having consumed a text that stands for a tree in the lenient sense (which adds stray backslash operators, a comma behind an operator, angle brackets and leading blanks), never with undefined behaviour. Whatever was read can be printed; unless a conditional is directly an operand of an operator, the printed text is again in the language and is read as the same tokens. Reducing the tokens read gives the value that the tree has when evaluated from its leaves.", "quantifier": "every line, every cursor position, every expression text and tree of any depth, either case sensitivity", "why_tests_cant": "The grammar is recursive and the scanner skips blanks and commas in places the grammar does not show; tests try a few expressions, and they cannot establish that every text has one reading or that the parser always ends.", "anchors": ["lib/m_expression_in.cc: Expression::arglist ... Expression::expression (62-281)", "lib/m_expression_dump.cc: Expression::dump (37-151)", "lib/m_base_in.cc: Name_String::parse (61-104), vString::parse (119-156)"]}
{"id": "C62", "title": "Text between quotes or brackets is read back as it was written", "statement": "When a value is read with quoting marks and the cursor is at an opening mark, the text up to the matching closing mark is returned and the cursor is left behind that mark (and behind blanks and one comma). A closing mark preceded by a backslash belongs to the text and the backslash does not; where the two marks differ, nested pairs belong to the text as they are. Every text without a backslash can be written that way between two equal marks, and between two different marks every text that also lacks the opening mark.", "quantifier": "every list of mark pairs, every text, every nesting, every line and cursor position", "why_tests_cant": "Nesting and escapes combine without bound; the piecewise copying of the text around each escape is easy to get wrong by one and tests show only a few shapes.", "anchors": ["lib/ap_convert.cc: CS::ctos (71-129)", "include/u_parameter.h: PARAMETER::parse", "apps/lang_spice.cc: parse_args (419)"]}
{"id": "C63", "title": "An instance line in verilog form says what it sets", "statement": "Every verilog instance line - optional attributes, a type, optional parameters by name or by order, a label, ports by name or by order, a semicolon, with white space anywhere between and commas where they are customary - is read to its end without complaint as exactly the settings it spells out, each with the attributes written in front of it: the type, each parameter with the text between its parentheses, the label, each port with its node, and nothing else. So no line stands for two different instances. A printed instance is such a line: when types, labels, parameter names and node names are printable as names and parameter values have their parentheses in pairs and no backslash, reading the printed line gives the instance back, attributes and escaped node names included. A paramset's parameters printed as words are read back the same way. Names beginning with a digit that hold more than letters and digits, names that hold a parenthesis, text values with a parenthesis, expressions given by order, an escaped name at the end of the line and paramset values with parentheses do not survive.", "quantifier": "all instances, all layouts of the line, all attributes, both settings of case sensitivity, every cursor position before", "why_tests_cant": "Tests read a handful of example netlists in one layout; the claim is about every name, value, attribute and layout, and about where the printer and the reader disagree.", "anchors": ["apps/lang_verilog.cc:118-130", "apps/lang_verilog.cc:155-393", "apps/lang_verilog.cc:676-688", "apps/lang_verilog.cc:712-796", "apps/lang_verilog.cc:852-860", "lib/ap_convert.cc:71-129"]}
{"id": "C64", "title": "A fitted curve goes through its points and its reported slope is its derivative", "statement": "For a fit or table behaviour with two or more points: tables that are not strictly ascending are refused with an error and ascending ones are accepted; the curve passes through every point; the reported slope is the derivative of the reported value, without jumps for orders 2 and 3; order 0 is a staircase, order 1 straight lines, order 2 parabolas, order 3 cubics that agree in slope and curvature where they meet, with given end slopes met and zero end curvature otherwise; outside the table the curve is a straight line with the given slope or the slope at the end point (below a cubic without a given slope: when there are three or more points and that slope is not negligible).", "quantifier": "all tables, orders 0 to 3, all boundary slopes, all arguments", "why_tests_cant": "the interpolating conditions are equations between all points and every real argument; a test sees a handful of values and cannot see a jump in slope", "anchors": ["lib/m_spline.cc:72-303", "include/m_spline.h:22-34", "apps/bm_fit.cc:129-167", "include/l_denoise.h:42-47"]}
{"id": "C65", "title": "An instance or model line in spice form says what it sets", "statement": "For every device that is not parsed by its behavioural model, every spice instance line - an optional dot type, a label, the nodes with or without parentheses, the type word if the device shows one, an optional value without a name, and name=value pairs in or out of parentheses and with or without the word params: - is read to its end as exactly the settings it spells out, with nodes left out in front of the type connected to ground; the nodes of the other elements are told from the value that follows them. No text has two readings. A .model line is read the same way. Printing an instance or a model gives a line that is read back as the same settings, provided the values need no quotes. A line without semicolon and opening parenthesis is always read to some end. Where the forms without parentheses are ambiguous (params:, an unnamed value while optional nodes are left out) the reading is not what was meant, and a semicolon makes the reader hang; these are recorded as refuted.", "quantifier": "every device signature, every line, every list of nodes and parameters, either case sensitivity and either setting of the option for keywords between nodes", "why_tests_cant": "how many words are nodes is found by counting ahead and depends on all that follows on the line; the number of shapes is unbounded and tests try a few", "anchors": ["apps/lang_spice.cc: count_ports (110-190), parse_ports (225-300), parse_args (390-445), parse_paramset (521-531), parse_instance (575-612)", "apps/lang_spice.cc: print_paramset, print_instance (685-816)"]}
{"id": "C66", "title": "A transient or fourier command simulates the interval it was asked for", "statement": "For every text of arguments, every option and every earlier analysis: an accepted tran command has 0 <= start < stop, a positive printing distance, and starts either at zero or, when not cold, where the last analysis ended, never after the interval begins; non-negative numbers never fail an assertion; each documented order of arguments (start stop step, step stop start, stop step, step stop, stop, step, 0, nothing) gives the interval it says; n repeated tran commands after an analysis with explicit start go on n times for the same length at the same distance; the step limits follow the last given dtmax, skip, dtmin, dtratio, and by default meet what the stepping algorithm needs; an accepted fourier command simulates exactly one period of the step frequency at a power of two of equal distances, with twice the stop frequency below the sampling frequency, and prints only frequencies the transform has, each within half a step of the asked one.", "quantifier": "all argument lists, options, expressions and values, prior states, numbers of repetitions", "why_tests_cant": "the interval depends on the history of earlier commands and on comparisons between real-valued arguments; tests try a few orders of arguments from a fresh start", "anchors": ["apps/s_tr_set.cc:36-224", "apps/s_fo.cc:166-204", "apps/s_fo.cc:229-319", "include/u_parameter.h:96-184", "include/u_parameter.h:550-653"]}
{"id": "C67", "title": "The solved circuit obeys Kirchhoff's current law and the law of every element, and the current probe shows that current", "statement": "In every iteration of every run of dc and transient solves, of any circuit of resistors, admittances, controlled and independent sources, controlled conductances and resistances, capacitors, inductors (with and without a current node), mutual inductances and multi-port conductances, with any nonlinear behaviours, any mixture of full, incremental and bypassed loads, and any number of devices in parallel: there are currents such that each element obeys its constitutive law expanded at its point of evaluation (Ohm's law, charge and its time derivative by the integration formula in force, a voltage source with the shorting resistance in series, a controlled source with the current its sensed element reports), the current probe of each element shows that current, and the currents leaving every node, with that of gmin, sum to zero. When the iteration stands still the unexpanded law holds. The three records a mutual inductance keeps agree throughout a run. After any dc sweep of the value of a linear element the last value is the one loaded.", "quantifier": "all circuits, behaviours, orders, sequences of commands and iterations, histories of time steps, integration methods, sweeps", "why_tests_cant": "the voltages depend on every element at once, and only the final few digits of a printed result can be compared; an element whose loaded value is stale or whose probe disagrees shows only in particular circuits and sequences of analyses", "anchors": ["apps/d_res.cc:94-206", "apps/d_admit.cc:96-163", "apps/d_vs.cc:35-140", "apps/d_cccs.cc:52-120", "apps/d_ccvs.cc:43-140", "apps/d_vcr.cc:70-130", "apps/d_cap.cc:90-200", "apps/d_coil.cc:60-500", "lib/e_elemnt.cc:369-374", "lib/e_storag.cc:127-173"]}
{"id": "C68", "title": "At every frequency of an ac sweep the circuit obeys Kirchhoff's current law and the small-signal law of every element, and no other voltages do", "statement": "For any circuit of resistors, admittances, controlled and independent sources, controlled conductances and resistances, capacitors, inductors (with and without a current node), mutual inductances and multi-port conductances, any multipliers, any ac behaviours, with or without an operating point before, and any list of frequencies: the sweep completes, and at each frequency there are ac currents such that each element obeys its small-signal law (the slope of its behaviour at the operating point or its ac behaviour; jw times the slope for storage; a source its ac value, with the shorting resistance), the ac current probe shows that current, and the currents leaving every node sum to zero (a pivot that cancels exactly has the minimum conductance added); any voltages and currents with this are those found. The small-signal law of an element without storage is the derivative of its law at the operating point. Every value loaded, in the dc and the ac matrix, lies at a pair of nodes the element declared.", "quantifier": "all circuits, behaviours, operating points, frequencies, ac values and multipliers", "why_tests_cant": "the voltages depend on every element at once through a complex system; tests compare a few printed digits of particular circuits, and stale state left by the previous frequency or analysis shows only in particular sequences", "anchors": ["apps/s_ac.cc:234-269", "apps/d_res.cc:193-214", "apps/d_vs.cc:152-160", "apps/d_cccs.cc:132-156", "apps/d_ccvs.cc:115-140", "apps/d_vcr.cc:113-138", "apps/d_cap.cc:159-168", "apps/d_coil.cc:487-552", "lib/e_elemnt.cc:191-199", "lib/e_elemnt.cc:441-445", "include/e_elemnt.h:464-490"]}
{"id": "C69", "title": "The print, plot, alarm and store lists hold what was asked for, no probe is on an object that is gone, and what was stored is found again", "statement": "For any sequence of building and destroying nodes and devices, of print, plot, alarm and store commands of any text, and of analyses: the count kept in every object is the number of probes on it over all lists, every probe is on an object that exists, no assert of the bookkeeping fails, and destroying an object takes exactly its probes out of every list and keeps the order of the others. A command changes only lists of its kind. A command in plain form (analysis, then items of sign, quantity and names) changes only the list of that kind and analysis: it starts empty when the first item has no sign; an added item appends one probe per object each name stands for, in order; a removed item takes out the probes whose label matches. A name stands for an object exactly if its pieces can be split into a piece that names the object and the containers on the way to it, written before it outermost first, after it outermost last, or both. After an analysis the wave found under a name is that of the first stored probe whose label matches, with the value at every point of output.", "quantifier": "all sequences of operations, all command texts, all circuits with any nesting, all names, all recorded points, any growth policy of the vector", "why_tests_cant": "a dangling probe shows only when the freed memory is used, in a sequence nobody wrote a test for; tests print a few lists for a few texts", "anchors": ["lib/u_probe.cc:30-99", "lib/u_prblst.cc:32-98", "lib/u_prblst.cc:130-318", "apps/c_prbcmd.cc:37-120", "lib/e_base.cc:43-61", "lib/e_base.cc:154-168", "apps/s__out.cc:82-89", "apps/s__out.cc:140-152"]}
{"id": "C70", "title": "A diode that has settled carries the current of its equation, and it does settle", "statement": "Held at a forward voltage, from any state, the iteration of a diode in its default style is always defined, tends to IS(T)*(exp(v/(N*kT/q))-1), is from the second iteration at or below it, and each iteration squares the relative error; an evaluation whose current does not change is on that curve, with the slope of the curve as conductance. In reverse every evaluation is on the curve with the conductances that the flags ask for. With flag 040 and as junction of a mos transistor (levels 1 to 8), where the voltage limit does nothing, every evaluation is on the curve of the style plus gmin, which has a slope at every voltage, rises everywhere, passes through zero and never gives power back; a settled state is on that curve exactly when the limit does nothing. IS(T) is the card value at TNOM and grows with the temperature. The junction capacitance is never negative, has a slope at every voltage (also at FC*PB), never falls, is the formula of the manual below FC*PB, and no assert fails.", "quantifier": "all parameters that a diode can have (positive IS, N, PB, temperatures in kelvin; 0<FC<1), all voltages, all states before, real arithmetic", "why_tests_cant": "a test compares a few currents at a few voltages; that the iteration settles from every state, that pieces join in value and slope at every parameter, and that a settled current can be wrong, is a statement about all of them", "anchors": ["apps/d_diode.model:138-188", "apps/d_diode.model:189-363", "apps/d_admit.cc:147-157"]}
{"id": "C71", "title": "A transmission line delays what enters it", "statement": "In a transient analysis, when the line's sources are reloaded at each accepted step, the wave v + z0 i that enters one port of a transmission line leaves the other port one delay later, as v - z0 i there: for every sequence of accepted and rejected time steps within the line's own limit, every port voltage history and every way the matrix is loaded, the simulation does not stop, and what each port receives is, within the tolerances, the straight line between the recorded waves around the time one delay ago. Before one delay has passed each port is the resistance z0. In an ac analysis the same holds at every frequency with the delay as a phase 2 pi f td (at a resonance moved by no more than a millionth of a quarter wave), no power is lost, and the currents drawn from the nodes are those of two ports.", "quantifier": "for all delays, impedances, node connections, time step sequences with rejections, voltages and frequencies", "why_tests_cant": "a test drives one line with one pulse and one step control; the wave tables grow without bound with the number of steps and any ordering or lookup error shows only for particular step ratios", "anchors": ["apps/d_trln.cc:327-363", "apps/d_trln.cc:394-432", "apps/d_trln.cc:438-491", "apps/d_trln.cc:505-510", "apps/d_trln.cc:516-543", "include/m_wave.h:59-111"]}
{"id": "C72", "title": "A behavioural function means its formula", "statement": "A tanh, posy, exp, sin or sffm function gives the value of its textbook formula, multiplied by scale and the temperature polynomial: as the value of an independent source at the time, and in a voltage controlled element as the value at the voltage, through which the line loaded into the matrix passes. The slope a tanh or posy reports to the iteration is the derivative of the value it reports. The corners of exp and the zeros or peaks of sin that are announced to the step control are the next ones, and none is skipped. In ac a bandwidth, phase and delay multiply the transfer by a first order low pass, the phase and the phase of the delay.", "quantifier": "for all parameters, tables, voltages, times, step sizes and frequencies", "why_tests_cant": "a test samples a few voltages and times; a slope that is not the derivative only slows or spoils convergence, and a skipped corner shows only for particular time steps", "anchors": ["lib/bm.cc:69-117", "include/bm.h:69-70", "apps/bm_tanh.cc:101-119", "apps/bm_posy.cc:137-197", "apps/bm_exp.cc:136-187", "apps/bm_sin.cc:149-200", "apps/bm_sffm.cc:147-154", "apps/d_cs.cc:113-121", "apps/d_admit.cc:147-156"]}
{"id": "C73", "title": "Modify, fault and unfault change exactly the elements named, and unfault puts everything back", "statement": "Each modify or fault command whose items name elements is carried out item by item: every element whose label matches the name gets exactly the decimal number written (in a sweep, the point between the two numbers written), elements not named keep value, text and common. After any mixture of such commands, unfault gives each faulted element the value, text and common it had when first faulted and keeps the modifications of the others. For fault commands of any text at all, if they are carried out then unfault is too and restores everything, including the attach counts of the commons. Every command ends, whatever its text, and touches nothing outside its scope. A name with dots finds the card inside the named subcircuit or nothing. A sweep of n steps starts at start and ends at last, evenly spaced or by equal factors.", "quantifier": "all sequences of commands, names with wildcards, decimal texts, scopes with nested subcircuits, stores of elements with shared commons, sweep states", "why_tests_cant": "the state space is all sequences of overlapping faults and modifications of elements sharing reference counted data; tests try a few sequences", "anchors": ["apps/c_modify.cc:40-164", "lib/findbr.cc:39-107", "include/u_cardst.h:29-82", "lib/e_elemnt.cc:72-80", "apps/c_sweep.cc:34-50"]}
{"id": "C74", "title": "A level 1 transistor that has settled carries the current of its equation, and it does settle", "statement": "Held at any node voltages within the limits, a level 1 MOS transistor in any state reaches, after finitely many iterations, an evaluation at exactly those voltages and stays there: the limiting of vgs and vds and the exchange of drain and source never hold it away, also when drain and gate are connected. Then, with the bulk not forward biased, its drain current is (beta/2)(1+lambda vds)((vgs-vth)+^2-(vgd'-vth)+^2), the textbook cutoff, saturation and linear formulas, with vth from VTO, GAMMA, PHI and the temperature; what it puts into the matrix is the tangent, and its small signal current is the derivative along every direction in which the nodes move, at the edges of regions and where drain and source change places too. The channel only takes power; no slope is negative. Exchanging drain and source, or polarity and all signs, reverses the current. At nominal temperature with bulk at source the threshold probe reads VTO and the current factor is KP W/L. The gate capacitances always have a value between the overlap and the overlap with two thirds (source, drain) or all (bulk) of the oxide", "quantifier": "for all parameters, node voltages, previous states, orientations and polarities, directions of a small signal and numbers of iterations", "why_tests_cant": "a test samples a few bias points; a slope that is not the derivative only spoils convergence, a limit that holds a device away from its voltages gives a wrong answer only from particular previous states, and edges of regions have measure zero", "anchors": ["apps/d_mos1.model:41-171", "apps/d_mos.model:109-116", "apps/d_mos.model:311-454", "apps/d_mos.model:483-579", "apps/d_mos123.model:35-110", "apps/d_mos_base.model:105-173", "include/u_limit.h:50-114", "apps/d_poly_g.cc:209-225", "lib/e_compon.cc:994-1034"]}
{"id": "C75", "title": "Impedance and power probes", "statement": "The probe zraw of an element and z of a node show the impedance between the nodes: the voltage that appears when a unit of current is forced through the loaded network, which exists and is unique. The probe z of a resistor, admittance, capacitor, uncoupled inductor or source shows the impedance of the rest of the circuit, without that element, in dc, transient and ac analysis. The powers shown for all elements, with gmin, add up to zero, and p is pd minus ps, neither negative.", "quantifier": "Every circuit, history of analyses, iteration, frequency, pair of nodes and element", "why_tests_cant": "A probe is checked on a few circuits by comparing with old output; that the admittance subtracted is the one in the matrix for every kind of element and multiplier, and the balance of power, are statements about all circuits.", "anchors": ["include/e_aux.h:29-54", "lib/e_elemnt.cc:376-478", "lib/e_node.cc:115-164"]}
{"id": "C76", "title": "What a probe name in an ac analysis prints, and how numbers are rounded for printing", "statement": "In an ac analysis each quantity of an element (v with its longer spellings, vin, i, p, nv, ev, y, r, z, zraw) and of a node (v, z) is a complex number. Its name with m, p, r or i after it prints its magnitude, phase, real or imaginary part, its name alone prints the part that is usual for it, and with db after that the part is printed in decibels: 20 to a decade, 10 for power, never less than 1e-50. Capitals are the same letters when case does not matter. Any other text prints as not valid. The parts fit together: the phase lies in the range the option selects and is the only one there that gives the real and imaginary part with the magnitude. Before printing, numbers below 1 are rounded to the nearest whole multiple of the option floor, larger ones are left alone, rounding twice changes nothing and, when 1 is a multiple of floor, a greater number never prints as a smaller one.", "quantifier": "for all complex values of all quantities, all probe names of up to 256 characters, both settings of case sensitivity and all four phase options; for all numbers and all positive floor and vfloor", "why_tests_cant": "A test tries some names at some values; that a name is never mistaken for another with a letter after it, that no other text is accepted, and that phase and rounding are right at every quadrant and boundary needs a proof over all texts and numbers.", "anchors": ["lib/e_base.cc:97-144", "lib/u_xprobe.cc:29-58", "include/u_xprobe.h:30-74", "include/m_phase.h:31-58", "lib/e_elemnt.cc:447-478", "lib/e_node.cc:115-119", "lib/e_node.cc:154-164"]}
{"id": "C77", "title": "Which value or function an element uses in which analysis", "statement": "The values and functions after the nodes of an element can each carry a label: ac, op, dc, tran (transient), four (fourier), else or all, or none. What is written after a label belongs to that label and nothing else does, the labels are read as whole words, and whether the element is a source is seen from the beginning of its line. Each analysis uses what was given for it; failing that the operating point takes the dc value, then the unlabelled one, then that of tran; dc takes the unlabelled one, then op, then tran; transient takes the unlabelled one, then dc, then op; fourier takes what transient takes; ac takes the unlabelled one, but a source only when the function says that it applies to ac; failing all it is zero. The plain value of a source without a label is its dc value if it has none yet. Of two given for the same label the later one is used, and if there was no warning nothing was replaced. The order of clauses with different labels does not matter, whether the element keeps the whole table or a single function makes no difference, and what is printed reads back as the same functions.", "quantifier": "for all lists of clauses, sources and other elements, all texts, both settings of case sensitivity, all ways of reading the functions themselves", "why_tests_cant": "A test tries a few combinations; there are unboundedly many lists of clauses, and that each analysis gets exactly one well determined function in every one of them, in any order, needs an induction over the list.", "anchors": ["lib/bm_cond.cc:54-72", "lib/bm_cond.cc:101-197", "lib/bm_cond.cc:219-230", "lib/bm_cond.cc:264-287", "include/bm.h:40-41", "include/bm.h:78", "include/ap.h:193-202", "apps/bm_model.cc:50"]}
{"id": "C78", "title": "Every option that is written is the one that is set", "statement": "In the options command, a word that spells the name of an option, in full or cut short as far as its description allows, followed by an equals sign or none and a value, gives that option exactly the value read and changes no other; a flag alone becomes true, with no before it false; a choice takes the first of its words that is spelled. Names do not stand in each other's way, wherever they are in the list of over a hundred. A word that is no option is passed over and changes nothing. The settings of a line are made one after the other from left to right; the command always comes to an end, and one that says it changed nothing has changed nothing. After any commands in a row tolerances and sizes are not negative, the number of digits is between 3 and 20, the order of step control between 1 and 3, each choice is one of its words, and the limits follow the tolerance. Names, flags and choices as print writes them are read back as themselves; the iteration limits are not.", "quantifier": "All option values at the start, all texts, all spellings with and without capitals, all sequences of commands, all ways of reading a language.", "why_tests_cant": "There are over a hundred names tried in order with abbreviations that begin alike, so whether one hides another depends on all pairs of spellings; the bounds must hold after every sequence of commands, and the end of the loop for every text.", "anchors": ["lib/u_opt2.cc:33-205", "lib/u_opt2.cc:211-319", "lib/u_opt1.cc:28-121", "lib/ap_get.cc:30-78", "include/ap.h:172-202", "include/u_opt.h:33-67", "include/mode.h:29-35"]}
{"id": "C79", "title": "Deleting by name removes the cards meant and no others", "statement": "The delete command with a plain name removes the first card of that name in the list (capitals ignored if they are ignored everywhere) and nothing else; with a pattern it removes every card that fits and no other; with a dotted name it looks inside the subcircuit definition named by the first part or, if there is none, by the last part, and only there. A name that matches nothing leaves everything as it was and is reported. Whatever the name, what is left is in its old order with nothing added or renamed, the inside of instances is never touched, and a name without a pattern takes away at most one card. Names of a line are handled from left to right with spaces or commas between them; all empties the list. A line without any of = ( ) ; } always comes to an end; a line with one of them after a name never does.", "quantifier": "All circuits nested to any depth, all names, all texts, with and without capitals, all numbers of rounds.", "why_tests_cant": "Names can have any number of dots that are read from the front or from the back, and lists can be nested to any depth; that nothing else is touched is a statement about every other card, and that a line never ends cannot be seen by running it.", "anchors": ["apps/c_delete.cc:38-122", "lib/e_cardlist.cc:89-112", "lib/e_base.cc:172-179", "include/l_stlextra.h:41-48", "include/e_card.h:100-118"]}
{"id": "C80", "title": "The model of a device is the nearest of its name, or the first of its bins that fits", "statement": "A device looks for its model in its own list first and then outwards to the root. In each list the first card of the plain name is taken; if there is none, the bins name.1, name.2 and so on are tried in order until one is missing, and the first that fits the device is taken; only a list that offers nothing is passed over. The card so determined is the one used: with a warning if it is a model that does not fit, refused if it is no model. If no list offers one the device is refused. The search always comes to an end.", "quantifier": "All nestings of lists, all cards in them with any names, all model names, any judgement of which model fits, with and without capitals.", "why_tests_cant": "The choice depends on every list on the way out and on every numbered name in it; that no other card can be taken, and that the loop over the numbers, which has no bound in the code, always ends, are statements about all lists.", "anchors": ["lib/e_compon.cc:874-934", "lib/e_card.cc:91-145", "lib/l_ftos.cc:56-61", "include/e_model.h:70"]}
{"id": "C81", "title": "A search along a path takes the first readable file", "statement": "findfile returns a name exactly when it is the file in the first directory of the path where it can be read, with exactly one slash between directory and name and none for an empty directory, and the empty text exactly when there is none; it always ends. include prefers the file under its own name, load uses the path only for names that start with neither a slash nor a dot, and the directories of LD_LIBRARY_PATH come before those built in.", "quantifier": "every file name, every path of any number of directories, every set of readable files", "why_tests_cant": "The number and the form of the directories are unbounded, and which files are readable is up to the machine; a test sees the few directories of the machine it runs on.", "anchors": ["lib/io_findf.cc:37-67", "lib/c_file.cc:54-60", "lib/c_attach.cc:60-82", "main/main.cc:62-68"]}
{"id": "C82", "title": "A command writes to the file its line names, and keeps files unless told otherwise", "statement": "xopen takes the first word of the line, with the time for each dollar sign, and adds the default extension exactly when there is one and no dot follows the last slash; the rest of the line is left. Nothing is written outside its buffer exactly when the name is shorter than the buffer. A file that exists is opened for writing only if the option clobber is set or the user agrees, and nothing else keeps a file from being opened.", "quantifier": "every line of any length, every extension, time, set of existing files and answer", "why_tests_cant": "Names have any length and any arrangement of dots, slashes and dollar signs, and the outcome depends on the clock, the disk and the answer of the user.", "anchors": ["lib/io_xopen.cc:48-113", "lib/c_file.cc:111-123", "lib/io_contr.cc:156-169"]}
{"id": "C83", "title": "list and save print the cards that the line selects", "statement": "Without arguments every card is printed. Names print, for each in turn, all cards that fit it in the order of the circuit, as long as each fits some card. A range with a dash prints the first card that fits the first name, the first after it that fits the second, and all between; a dash at the end means to the end, one in front from the beginning. A first name or a range end that fits nothing is reported and nothing is printed. No line uses the end of the list as a card or prints a card of another circuit.", "quantifier": "every circuit of any length, every line of names with wildcards and dashes", "why_tests_cant": "Circuits and lines have any length and cards of the same name in any positions; iterators that go on after the end show only for some of these.", "anchors": ["apps/c_list.cc:63-107", "lib/findbr.cc:39-107", "include/e_cardlist.h:50-75"]}
