# Formal model of gnucap in Rocq (Coq 8.16.1)

The model lives in `rocq/theories`.  It is written from the C++ text in `/repo`; nothing was
compiled or run.  Every model definition cites the file and lines it transcribes, and says where it
simplifies.

Contents: 1 layout, 2 modelling conventions, 3 plan and theorems per property, 4 trusted base (what is
modelled and what is not), 5 findings, 6 assumptions of each theorem, 7 mutation tests.

## 1. Layout

| suffix     | content |
|------------|---------|
| `*_Model.v`| Gallina transcription of the C++ (definitions only) |
| `*_Sem.v`, `*_Spec.v` | independent specifications (where not stated in the theorem file) |
| `*_Proofs.v` and other helper files | lemmas |
| `P_*.v`    | the property theorems, `Print Assumptions` after each, an `Example` meeting the hypotheses beside each |

`Loops.v` (for-loops, array update), `FieldSums.v` (an exact field as a record, sums), `Qnum.v`
(rationals), `AMap.v` (finite maps with the order of `std::map`) and `Decimal_Text.v` (printing of
integers) are shared.

The build is one `make` in `rocq`; the whole takes a few minutes on four cores.

## 2. Modelling conventions

* Numbers.  Styles, chosen per property:
  (a) *abstract arithmetic without laws* (record `arith`, `Matrix_Model.v`): a theorem holds for any machine
  arithmetic, IEEE doubles included;
  (b) *exact field* (record `fld`, `FieldSums.v`, with the instance `QcFld`) or exact rationals `Q`: rounding is
  idealised away and the theorem says so;
  (c) `Z` for integers, with overflow of `int` an explicit outcome where the code can overflow;
  (d) the record `dbl` (`Value_Model.v`): what the expression code uses of `double`, with two instances, IEEE
  binary64 (`b64`, from `Coq.Floats.SpecFloat`) and exact rationals (`QD`).
* Undefined behaviour and failed `assert`s are distinct outcomes (`None`, `UB`, `Undef`), never a default
  value.  A theorem of the form "the call returns ..." therefore also says that the behaviour is defined.
* Thrown exceptions are outcomes of their own (`Throw`, `Raise`).
* Loops are structural recursion, or recursion on explicit fuel with an error value; the theorem then
  shows that the fuel suffices (unless non-termination is the point).
* External effects (other devices, the user, the file system, the parser of a language) are arguments: a
  theorem quantifies over all of their possible answers.
* Where a property as a user would state it is false of the code, the file holds a theorem
  `..._refuted` with a concrete witness, and the property's statement in `properties.jsonl` says what does
  hold.  A property that is mainly refuted is kept with status `partial` (C50, C51, C52).

## 3. Plan per property

| id | property | modelled | proof method | status | theorem file |
|---|---|---|---|---|---|
| C01 | Matrix storage: one private cell per in-envelope entry | `init`, `iwant`, `allocate`, accessors `d/u/l/m/s` as functions of the `lownode` array | fold induction on the `iwant` history; arithmetic on cumulative offsets | proved | `P_Matrix.v` |
| C02 | Stamping equals the dense sum of contributions | load functions on a flat cell array | fold induction, refinement to a dense function | proved | `P_Matrix.v` |
| C03 | Factorisation reproduces the matrix | `LU_COPY::lu_decomp(false)` as loops over a flat array | loop invariants; block induction on columns | proved | `P_Matrix.v` |
| C04 | Forward/back substitution solves the loaded system | `fbsub` (both forms) | loop invariants; triangular solves compose | proved | `P_Matrix.v`, `P_Unique.v` |
| C05 | Transposed substitution solves the transposed system | `fbsubt` | same | proved | `P_Matrix.v`, `P_Unique.v` |
| C06 | Partial refactorisation is bit-identical to full refactorisation | `lu_decomp(true)` with changed flags, any arithmetic | uniqueness of the recurrence; propagation invariant | proved | `P_Matrix.v` |
| C07 | In-place and two-matrix factorisation agree | `LU_INPLACE::lu_decomp` | simulation between the two loops | proved | `P_Matrix.v` |
| C08 | Incremental matrix loading equals a full reload | `dampdiff` and `tr_load_*`, load queue | invariant over histories | proved | `P_Solver.v` |
| C09 | Every solution comes from the current matrix | `set_flags`, `clear_arrays`, `load_matrix`, `solve_equations` as a state machine | invariant over histories, uses C06 | proved | `P_Solver.v` |
| C10 | Internal node numbering is a permutation fixing ground | `order_*`, `map__nodes`, `alloc_hold_vectors` | arithmetic, bijection | proved | `P_Expand.v` |
| C11 | Subcircuit expansion connects ports and isolates internals | `map_subckt_nodes` | induction over node lists and expansions | proved | `P_Expand.v` |
| C12 | Node names and numbers correspond one to one | `NODE_MAP` as finite map | invariant over histories | proved | `P_Nodemap.v` |
| C13 | Wildcard name matching | `wmatch` with fuel | equivalence with a declarative glob relation; the documented reading is refuted by witness | proved | `P_Wmatch.v` |
| C14 | Command scanner never leaves its line and failed matches consume nothing | `CS` cursor operations | invariant over histories | proved | `P_Scanner.v` |
| C15 | Keyword abbreviation matching | `umatch`/`match1` | equivalence with a declarative prefix relation | proved | `P_Keyword.v` |
| C16 | Integer and boolean input have their documented values | `ctoi`, `ctou`, `ctoo`, `ctox`, `ctob` | round trip with a decimal printer; digits as a base b value; word table | proved | `P_Number.v` |
| C17 | Numeric input with scale suffixes has its documented value | `ctof` | exact rational value | proved | `P_Number.v` |
| C18 | Trimming removes exactly the trailing blanks | `trim` | string induction | proved | `P_Lines.v` |
| C19 | Constant folding preserves the value of an expression | tokens, stack operations, `Expression::reduce_copy` | big-step meaning of token lists, preserved by induction on the reduction; refuted clauses by witness | proved | `P_Expr.v` |
| C20 | Typed arithmetic agrees with arithmetic on values | `Integer`, `Float`, `String` and their verilog forms, double dispatch | case analysis with algebra, IEEE instance; modulo and verilog flavour refuted by witness | proved | `P_Value.v` |
| C21 | Parameter lookup follows scope and reports cycles | `PARAM_LIST`, `PARAM_INSTANCE::e_val`, lookup with the recursion counter | induction on scopes and fuel, cyclic definitions by invariant; refuted clauses by witness | proved | `P_Scope.v` |
| C22 | Plugin dispatcher registration | `DISPATCHER_BASE` | invariant over histories | proved | `P_Dispatcher.v` |
| C23 | Transient time advances and never skips an event | `TRANSIENT::next/review` | invariant over histories | proved | `P_Transient.v` |
| C24 | Scheduled events come out in time order and not early | `new_event`, event queue | invariant, sortedness, rounding arithmetic | proved | `P_Transient.v` |
| C25 | The binding time limit is the minimum over all devices | `TIME_PAIR`, `tr_review` fold | induction | proved | `P_Transient.v` |
| C26 | DC sweep visits the documented points | `DCOP::first/next`, `sweep_recursive` | induction on grid index; reverse order refuted by witness | proved | `P_Sweep.v` |
| C27 | AC sweep frequency points | `AC::first/next` | induction; overshoot refuted by witness | proved | `P_Sweep.v` |
| C28 | Table interpolation | `interpolate`, `upper_bound` | binary search invariant | proved | `P_Interp.v` |
| C29 | Re-running an analysis does not change a piecewise-linear source | `EVAL_BM_PWL::precalc_last`/`tr_eval` | adjacency argument for repeated tables; stale data refuted by witness | proved | `P_Interp.v` |
| C30 | Delay line reproduces its input later | `WAVE` | uses C28 | proved | `P_Interp.v` |
| C31 | Divided-difference derivatives are those of the interpolating polynomial | `derivatives` | algebra of divided differences | proved | `P_Poly.v` |
| C32 | First-order polynomial forms convert without change of meaning | `FPOLY1`, `CPOLY1` | field; product refuted by witness | proved | `P_Poly.v` |
| C33 | Integration formulas are consistent | `differentiate`, `tr_c_to_g`, `method_select` | field | proved | `P_Storage.v` |
| C34 | Truncation-error step proposal is usable | `tr_review_check_and_convert` | order reasoning | proved | `P_Storage.v` |
| C35 | Element history advances and regresses consistently | history arrays | induction | proved | `P_Storage.v` |
| C36 | Pulse source corners are always announced | pulse `tr_eval`, `tr_review` | order reasoning; short-period case refuted by witness | proved | `P_Pulse.v` |
| C37 | Polynomial source value and slope | poly `tr_eval` | induction on coefficients | proved | `P_Poly.v` |
| C38 | Switch hysteresis | switch state machine | induction on histories | proved | `P_Switch.v` |
| C39 | Logic gates compute their boolean function | truth tables and gate folds | finite tables, induction on input count, permutation | proved | `P_Logic.v` |
| C40 | Maximum / minimum measurement | max/min measurement loops | induction | proved | `P_Measure.v` |
| C41 | Crossing measurement | cross measurement loop | induction | proved | `P_Measure.v` |
| C42 | Integral, average and rms measurements | integral/average/rms loops | induction | proved | `P_Measure.v` |
| C43 | FFT equals the discrete Fourier transform | `fft` loops | Cooley-Tukey induction plus bit reversal | proved | `P_Fft.v` |
| C44 | Fourier point count is the next power of two | `to_pow_of_2` | arithmetic; exact powers refuted by witness | proved | `P_Measure.v` |
| C45 | Shared component data is freed exactly once | reference counts | invariant over histories | proved | `P_Common.v` |
| C46 | Output stream sets behave as sets | bit masks | bitwise algebra | proved | `P_Output.v` |
| C47 | Parameters set by name land on the listed parameter | name and index tables | finite tables; refuted by witness | proved | `P_Params.v` |
| C48 | A file is read as its logical lines | `getlines`, `trim` | induction on the lines of the file | proved | `P_Lines.v` |
| C49 | Output text is kept and lines fit | `OMSTREAM` text output with columns | invariant over output programs | proved | `P_Output.v` |
| C50 | DC sweep in reverse | `DCOP::first/next` in reverse | as C26; the documented points are refuted | partial | `P_Sweep.v` |
| C51 | Changed piecewise-linear points are honoured | `EVAL_BM_PWL::precalc_last` | refuted by witness | partial | `P_Interp.v` |
| C52 | Product of first-order forms | `FPOLY1::operator*=` | algebra; refuted by witness | partial | `P_Poly.v` |
| C53 | Choice of integration method | `STORAGE::method_select` | finite case analysis | proved | `P_Storage.v` |
| C54 | Digital outputs move when their event is due | `LOGIC_NODE` events and `DEV_LOGIC` advance/regress | case analysis and order reasoning over runs | proved | `P_Logic.v` |
| C55 | Reading a logic value from a voltage | `LOGIC_NODE::to_logic/to_analog` | order reasoning | proved | `P_Logic.v` |
| C56 | Slew rate measurement | slew rate loop | induction on the waveform | proved | `P_Measure.v` |
| C57 | Ports of a subcircuit header | `parse_ports`, `set_port_by_index` | induction on the header's names | proved | `P_Expand.v` |
| C58 | A solve uses the gmin option in force | `solve_with_homotopy`, flags | invariant over solves | proved | `P_Solver.v` |
| C59 | Every solve ends | `solve` loops with the convergence count | measure on the iteration counters | proved | `P_Converge.v`, `P_Solver.v` |
| C60 | A printed number is read back as the number, to the digits asked for | `ftos` with its 40-character row, against the reader `ctof` of C17 | decimal digits as floors; the printed text is put in the form C17 reads | proved | `P_Ftos.v` |
| C61 | Expressions are read as the tree they are written for, and printing can be read back | the sixteen member functions of the recursive descent parser over the scanner model, and `dump` | soundness by induction on depth with a measure on the text left; completeness by induction on the grammar's derivations; printing by induction on trees | proved | `P_Parse.v` |
| C62 | Text between quotes or brackets is read back as it was written | `ctos` with its quoting loop | the loop computes a text function; induction on how the text was put between the marks | proved | `P_Quote.v` |
| C63 | An instance line in verilog form says what it sets | attribute, parameter, label, identifier and port reading of the verilog language plugin over the scanner model; the printer | one lemma per reading step on the text after the cursor, then induction on how the line was written | proved | `P_Verilog.v` |
| C64 | A fitted curve goes through its points and its reported slope is its derivative | the SPLINE constructor with its shared arrays, evaluation, and the table check of `fit` | loop invariants for the tridiagonal elimination (pivots positive by induction), then algebra per piece | proved | `P_Spline.v` |
| C65 | An instance or model line in spice form says what it sets | counting and reading of nodes, label, type and parameter reading of the spice language plugin over the scanner model; the printers | one lemma per reading step on the text after the cursor, then cases on how the line was written; totality by the length of the text left | proved | `P_Spice.v` |
| C66 | A transient or fourier command simulates the interval it was asked for | TRANSIENT::setup and options, FOURIER::setup, stepnum and the printed range, PARAMETER<double> as used there, over exact rationals | case analysis on the order of arguments, induction on the number of repeated commands, linear arithmetic, the power of two of C44 | proved | `P_Setup.v` |
| C67 | The solved circuit obeys Kirchhoff's current law and the law of every element, and the current probe shows that current | what the basic elements compute in a dc or transient iteration, load and report: d_res, d_admit, d_vs, d_cs, d_vcvs, d_cccs, d_ccvs, d_vcg, d_vcr, d_cap, d_coil, d_poly_g, differentiate, tr_amps; the value of linear elements in a dc sweep; the records of a mutual inductance; behaviours are arbitrary functions | field arithmetic per element, summed over the circuit and composed with C09 (the solved system is the sum of the stamps); invariant over sequences of advances and evaluations | proved | `P_Elements.v` |
| C68 | At every frequency of an ac sweep the circuit obeys Kirchhoff's current law and the small-signal law of every element, and no other voltages do | AC::solve and sweep; ac_begin, do_ac, ac_load, ac_amps and ac_iwant_matrix of the basic elements; ac behaviours are arbitrary functions, the numbers an arbitrary field read as the complex numbers | field arithmetic per element, the loads summed over the circuit, correctness of the in-place factorisation (C01) and of substitution (C04), uniqueness by forward and backward induction over the factors; induction over the list of frequencies | proved | `P_AC.v` |
| C69 | The print, plot, alarm and store lists hold what was asked for, no probe is on an object that is gone, and what was stored is found again | PROBE, PROBELIST, PROBE_LISTS, the print/plot/alarm/store commands, the destructor of CKT_BASE, find_wave and the recording of waves; the values of probes are parameters | invariant by induction over the operations (count = number of probes, every probe on a live object), with the copies and destructions of std::vector and std::remove; the commands by induction over their text with the scanner lemmas; name lookup by induction over the pieces | proved | `P_Probes.v` |
| C70 | A diode that has settled carries the current of its equation, and it does settle | eval Yj, eval Cj of the diode with the admittance around them; voltages given; real numbers | derivatives and joints of the pieces in Coq's Reals; the forward iteration written as r(1-log r), error squared by log inequalities, limit by the squares; settled states by monotony of the curves | proved | `P_Diode.v` |
| C71 | A transmission line delays what enters it | the whole of DEV_TRANSLINE (wave tables, sources, loads, acceptance, ac admittances) and the length and impedance of COMMON_TRANSLINE | invariant over the steps: the two tables are the sent waves in order, ending one delay after the last step; lookup by the interpolation lemmas of C28; loads by induction over the iterations; ac by trigonometry in Coq's Reals | proved | `P_Trln.v`, `P_TrlnAc.v` |
| C72 | A behavioural function means its formula | the common adjustments of behavioural functions and the evaluation of tanh, posy, exp, sin, sffm, the events of exp and sin, and the use of the result by sources and admittances | derivatives in Coq's Reals, piecewise and locally; induction over the table of posy and over the periods of exp; integer part for the events | proved | `P_Bmfun.v` |
| C73 | Modify, fault and unfault change exactly the elements named, and unfault puts everything back | c_modify.cc, findbr.cc, u_cardst.h, the values of c_sweep.cc | invariant of the attach counts by induction over the changes; unfault as the inverse of each fault; the text by the scanner lemmas; the search by induction over the name and the tree of cards | proved | `P_Fault.v` |
| C74 | A level 1 transistor that has settled carries the current of its equation, and it does settle | d_mos1.model, the level 1 part of d_mos.model, u_limit.h | one formula for all regions through the square of the positive part; derivative along a line, glued at vds=0; induction over the limited voltages with an Archimedean bound; induction over iterations | proved | `P_Mos.v` |
| C75 | Impedance and power probes | port_impedance, the probes z, zraw, p, pd, ps of ELEMENT and z of NODE, on top of the solver and the elements of C67 and C68 | The factors the probe substitutes in are those of the loaded matrix (as in C09); removing a conductance across the port scales the response by a factor that the formula undoes. Power: Kirchhoff's law of C67 multiplied by the voltages and summed. | proved | `P_Port.v` |
| C76 | What a probe name in an ac analysis prints, and how numbers are rounded for printing | ac_probe_num, probe_num, XPROBE, phase, ELEMENT::ac_probe_ext, NODE::ac_probe_ext, the voltage probe of NODE | Taking a text apart from its end is shown to be the only way to read it, given that no name ends in a letter that could be a modifier; the matcher is that of C15. Polar form from the library lemmas on atan; rounding from Int_part. | proved | `P_Xprobe.v` |
| C77 | Which value or function an element uses in which analysis | EVAL_BM_COND: parse_common_obsolete_callback with its labels, rules and defaults, deflate, tr_eval and ac_eval (which object is called), print_common_obsolete_callback | The loop is an invariant over the clauses read so far: each slot holds the last clause that counts for it. The rules are a search along a list of labels. The text is related to its clauses by an inductive definition shown to be single-valued; labels use the matcher of C15. | proved | `P_Cond.v` |
| C78 | Every option that is written is the one that is set | OPT::set_values with its table of over a hundred names, the Get and Set functions it calls, the initial values, and the words OPT::print writes | A pattern is cut into letters, optional letters and word end; the matcher is shown equal to a reading along these parts. All pairs of spellings are compared once by computation inside the proof, which gives that the first line of the table that matches is the right one. The loop is by induction on the text left; bounds are an invariant over every write the table can make. | proved | `P_Opts.v` |
| C79 | Deleting by name removes the cards meant and no others | CMD_DELETE with delete_one_name, and the search and removal it uses of CARD_LIST | The recursion on dotted names is shown not to depend on its bound, which gives one equation; each kind of name follows from it. What is left is related to what was there by an inductive relation over nested lists, proved by induction on the depth. The text is read by views of the cursor; the unending line by induction on the number of rounds. | proved | `P_Delete.v` |
| C80 | The model of a device is the nearest of its name, or the first of its bins that fits | COMPONENT::find_model with find_in_my_scope and the numbered names | Which card is meant is defined without the search: first of its name, lowest bin with all below it present, nearest list. It is shown to be unique, so equivalences determine the result. The end of the unbounded loop is by counting: different numbers have different names, so each round needs another card. | proved | `P_Model.v` |
| C81 | A search along a path takes the first readable file | findfile, and the choice of file by include and load | Every text is shown to be directories joined by colons in exactly one way. Which file is meant is an inductive relation over the directories, shown to be unique; induction over the directories relates it to the loop over the characters. | proved | `P_Findf.v` |
| C82 | A command writes to the file its line names, and keeps files unless told otherwise | xopen up to the call of fopen | The name is given by a relation on words that does not follow the loop; that the flag of the loop means a dot after the last slash is by induction from the end of the word, and the copy by induction over the word with any text already copied. | proved | `P_Xopen.v` |
| C83 | list and save print the cards that the line selects | the selection of cards in list_save, with findbranch for names without dots | Iterators are suffixes of the list. Results are stated by filter and by how the list splits at the cards meant; every list splits at its first fitting card or has none. | proved | `P_List.v` |

The theorem names are in `MANIFEST.json` and in section 6.

## 4. Trusted base

1. Coq's kernel (`coqc` 8.16.1; the compiled files can be rechecked with `coqchk`).
2. The assumptions listed in section 6: none for all theorems but those of C70, C72, C74 and C76 (and two of C43, `C71_ac` and `C71_parameters`), which use the
   axioms of Coq's `Reals` (classical logic, functional extensionality and the two of its construction).  The development declares no axiom, no parameter, no module type and no functor, and
   switches off no kernel check.
3. That the model says what the C++ says.  This was done by reading; the citations in the comments
   are there so that it can be checked by reading.  The mutation tests (section 7) check that the
   theorems notice when the model says something else.
4. The meaning of the C++ constructs: `int` is 32 bits, `size_t` does not wrap in the ranges used,
   `std::map`, `std::set`, `std::list`, `std::priority_queue`, `std::upper_bound` and `std::string` behave as the
   standard says, `<cctype>` is that of the "C" locale.

### 4.1 What is modelled, and what is not

| model file | modelled | not modelled |
|---|---|---|
| `Matrix_Model.v` | `include/m_matrix.h` (`BSMATRIX_DATA`: `init`, `uninit`, `iwant`, `allocate`, `clear`, accessors, `load_*`, `fbsub`, `fbsubt`), `include/m_matrix_solver.h` (`LU_COPY`, `LU_INPLACE`, changed flags, dot product) | memory management, `dezero`'s use by others, density statistics, overflow of the index type for matrices with more than 2^31 cells |
| `Solver_Model.v` | `apps/s__solve.cc` (`solve`, `solve_with_homotopy`, `set_flags`, `clear_arrays`, `evaluate_models` queueing, `load_matrix`, `solve_equations`, `set_damp`, convergence loop), `tr_load_*` and `dampdiff` of `include/e_elemnt.h`, incremental mode of `include/u_sim_data.h` | what a device computes (an arbitrary stream of values), printing, statistics, `acxm`; `mfactor` is constant during a run |
| `Expand_Model.v` | `CARD_LIST::map_subckt_nodes`, `node_t` (map, new node, subcircuit node), `DEV_SUBCKT` expansion order, `SIM_DATA::map__nodes` and the orderings, ports of a spice subcircuit header | devices that allocate internal nodes themselves except coupled coils, parameters (see `Scope_Model.v`), other languages' headers |
| `Nodemap_Model.v` | `NODE_MAP` | simulation data in `NODE` |
| `Wmatch_Model.v` | `lib/l_wmatch.cc` | strings with embedded NUL |
| `CS_Model.v` | scanner `CS`: `include/ap.h`, `lib/ap_skip.cc`, `lib/ap_match.cc`, `lib/ap_convert.cc` | reading from files or the console (`Lines_Model.v` covers the line assembly), warnings, locale |
| `Lines_Model.v` | `lib/l_trim.cc`, `getlines` of `lib/ap_construct.cc` | `fgets` itself (its specification is used), console input |
| `Out_Model.v` | `OMSTREAM` sets, columns, packing | encryption, number formatting (`Ftos_Model.v` has `ftos`) |
| `Dispatcher_Model.v` | `lib/l_dispatcher.cc`, `include/l_dispatcher.h` | dynamic loading of plugins |
| `Common_Model.v` | attach, detach, clone and compare of `COMMON_COMPONENT`, `COMPONENT::set_param_by_name` | the contents of the derived classes (arbitrary data with an arbitrary comparison) |
| `Params_Model.v` | setting and listing parameters by name and index, `lib/e_compon.cc` | individual devices' own tables (an arbitrary table) |
| `Value_Model.v` | typed values: `include/m_base.h`, `include/m_base_vams.h`, `lib/m_base_math.cc` | parsing and printing of values |
| `Expr_Model.v` | reduction: `lib/m_expression_reduce.cc`, `include/m_expression.h`, functions of `apps/func_core.cc` | the parser (`Parse_Model.v` has it), `Token_ARRAY`, the mathematical library beyond the functions used |
| `Verilog_Model.v` | instance lines and paramset parameters of `apps/lang_verilog.cc`, as the calls made on the device | the device behind the calls, module headers, warnings, ports by current |
| `Spice_Model.v` | instance and `.model` lines of `apps/lang_spice.cc`, as the calls made on the device; the nodes of elements that parse their own value | the device behind the calls, `.subckt` headers, commands, warnings, what follows the nodes of such elements |
| `Parse_Model.v`, `Parse_Spec.v` (the grammar) | expression parser and printer: `lib/m_expression_in.cc`, `lib/m_expression_dump.cc`, `lib/m_base_in.cc` | `Name_String` data objects, warnings |
| `Scope_Model.v` | `lib/u_parameter.cc`, `include/u_parameter.h` | parsing and printing of values (arguments) |
| `Tran_Model.v` | `TIME_t`, `new_event`, `TRANSIENT::first/next/review/accept/sweep`, `TIME_PAIR` | rounding of doubles; the analysis setup; what a solution is |
| `Sweep_Model.v` | `DCOP` and `AC` `first`, `next`, `fix_args`, `sweep` | `pow` (its values are arguments), the solutions |
| `Interp_Model.v` | `include/m_interp.h`, `apps/bm_pwl.cc`, `include/m_wave.h` | rounding |
| `Poly_Model.v` | `include/m_cpoly.h`, `include/m_divdiff.h`, `apps/bm_poly.cc` | rounding |
| `Spline_Model.v` | `lib/m_spline.cc`, the table check of `apps/bm_fit.cc` | rounding (except in C64_rounding_refuted, which uses binary64); `std::upper_bound` by its specification |
| `Storage_Model.v` | history and step control of `lib/e_elemnt.cc`, `lib/e_storag.cc` | rounding; roots are any function within a given relative accuracy |
| `Pulse_Model.v`, `Switch_Model.v`, `Logic_Model.v` | `apps/bm_pulse.cc`; `apps/d_switch.cc`; `lib/e_logicval.cc`, `lib/e_logicnode.cc`, `apps/d_logic.cc` | rounding; parsing; the analogue side of mixed logic nodes beyond the voltage |
| `Measure_Model.v` | `apps/measure_*.cc` loops, `to_pow_of_2` | argument parsing, conversion of the result to text |
| `Setup_Model.v` | `apps/s_tr_set.cc`, the setup and printed range of `apps/s_fo.cc`, `PARAMETER<double>` as used there | rounding, infinities (a division by zero ends the setup); the text of the command; the output, temperature, uic and trace options |
| `Elements_Model.v` | the dc and transient evaluation, load and current probe of `d_res`, `d_admit`, `d_vs`, `d_cs`, `d_vcvs`, `d_cccs`, `d_ccvs`, `d_vcg`, `d_vcr`, `d_cap`, `d_coil`, `d_poly_g` (`apps/`) | rounding (and `fixzero`, `dn_diff`, which are the identity without it); limiting of the input; behaviours (arbitrary functions) |
| `AC_Model.v` | `AC::solve` and `sweep`; `ac_begin`, `do_ac`, `ac_load`, `ac_amps`, `ac_iwant_matrix` of the elements of `Elements_Model.v` | rounding; `ac_final_adjust`; subcircuits and devices built of elements |
| `Probes_Model.v` | `PROBE`, `PROBELIST`, `PROBE_LISTS::purge`, `do_probe` (`apps/c_prbcmd.cc`), `CKT_BASE` constructor, destructor and `find_wave`, `SIM::head` and `store_results`; the calls of `std::vector` and `std::remove` spelled out | what is printed; the value of a probe (a parameter); `_sim->init` inside a command (operations New and Delete); alarms |
| `Diode_Model.v` | `eval Yj` and `eval Cj` of `apps/d_diode.model` with all flags and mos levels, the two lines of `DEV_ADMITTANCE::do_tr` that feed them; log and pow of numbers not positive are failures | rounding and overflow (real numbers); the series resistance; the damping request on a change of region; the probes; `tr_involts_limited` (the voltage is given) |
| `Bmfun_Model.v` | `lib/bm.cc` (`temp_adjust`, `tr_final_adjust`, `tr_finish_tdv`, `ac_final_adjust`), `tr_eval` of tanh, posy, exp, sin, sffm, the events of `tr_review` of exp and sin, what sources and admittances take from the result | rounding and overflow; reading and printing of parameters; the step limits by error estimate; the events of sffm (an iteration without bound); the other elements with a function |
| `Fault_Model.v` | apps/c_modify.cc (modify, fault, unfault, sweep_fix), lib/findbr.cc, include/u_cardst.h, ELEMENT::set_value(double, common), attach counts, the number of intervals of sweep | messages, `_sim->uninit()`, the command file and loop of sweep, deletion detaching commons |
| `Trln_Model.v` | `DEV_TRANSLINE` in `apps/d_trln.cc`: `tr_begin`, the three advances, `do_tr`, `tr_load`, `tr_review`, `tr_accept`, `do_ac`, `ac_load`; `real_td` and `real_z0`; the loading of symmetric and asymmetric entries | rounding; the circuit around the line (port voltages are arbitrary); denoising of node differences; parsing and printing of the card; `cont` (restarting keeps the tables); steps longer than the delay |
| `Fft_Model.v` | `lib/m_fft.cc` | rounding; `cos` and `sin` are the exact functions |
| `Mos_Model.v` | `tr_eval`, parameters and temperature of `apps/d_mos1.model`; `do_tr`, `reverse_if_needed`, the three gate capacitances and four probes of `apps/d_mos.model`; `fet_limit_vds`, `fet_limit_vgs`, `volts_limited`; `tr_amps` of `DEV_CPOLY_G`; sqrt, log and division without a value are failures | rounding and overflow (real numbers); series resistances and junctions; the charges; bypass, damping and messages; the other levels |
| `Port_Model.v` | include/e_aux.h:29-54, lib/e_elemnt.cc:384-391, 432-435, 449, 471-474, lib/e_node.cc:120-121, 157-160: the probes z, zraw, p, pd, ps | the other probes of ELEMENT and NODE, the rounding of the value shown, the power of a subcircuit |
| `Xprobe_Model.v` | lib/e_base.cc:97-144, lib/u_xprobe.cc:29-58, include/u_xprobe.h:30-74, include/m_phase.h:31-58, lib/e_elemnt.cc:447-478, lib/e_node.cc:115-119, 154-164: the reading of ac probe names, parts of complex numbers, decibels, the phase options, the tables of quantities of elements and nodes, rounding to the options floor and vfloor | signed zeros, infinities and NaN; the ac probes of gates and meters; the other probes of nodes |

Nothing else of gnucap is modelled: the language plugins apart from what is named above,
the transistor models and the model compiler, plotting, the console, the spice wrapper.

### 4.2 Lines of the repository cited by the model

Generated from the comments of the `*_Model.v` files (a bare line number in a comment refers to the file
named last).

| `Cond_Model.v` | lib/bm_cond.cc: parse_common_obsolete_callback (101-197) with the labels and the source test read from text, deflate (219-230), the analysis functions (54-61) as a choice of object, print_common_obsolete_callback (264-287) as a list of labels and functions | the reading and printing of each function (a parameter of the model), expand (208-217), precalc, set_param_by_index, the text of the warnings |
| `Opts_Model.v` | lib/u_opt2.cc: set_values (55-206) with method Get (39-51) and every line of its table, the words of print (211-319); lib/ap_get.cc Get (30-78); Get and Set of include/ap.h (172-202); initial values lib/u_opt1.cc (28-121); operator<< of the enumerations (include/u_opt.h, include/mode.h) | the reading of a language (a parameter), set_verilog_math, big_change (has no effect), the text of warnings, the layout and numbers of print, command (33-37) |
| `Delete_Model.v` | apps/c_delete.cc: delete_one_name (38-104), do_it (106-122); find_ and find_again (include/e_cardlist.h:90, lib/e_cardlist.cc:89-94), find_ptr (include/l_stlextra.h:41-48), comparison of names (lib/e_base.cc:172-179), erase and erase_all as removal from the list | purge and destruction of the cards, who else points to them; the text of the warning; names with zero characters |
| `Model_Model.v` | COMPONENT::find_model (lib/e_compon.cc:874-934), find_in_my_scope (lib/e_card.cc:133-145), to_string of a bin number (lib/l_ftos.cc:56-61) | is_valid of each kind of model (a fact about each card), how the chain of owners is built, the texts of the messages, numbers of bins beyond int |
| `Findf_Model.v` | findfile (lib/io_findf.cc:37-67), the name include opens (lib/c_file.cc:54-60) and its warning (72, 80-81), the name load takes (lib/c_attach.cc:60-82), the plugin path (main/main.cc:62-68) | access and fopen (parameters); the relative include with its change of directory; Windows separators; what is done with the file |
| `Xopen_Model.v` | xopen (lib/io_xopen.cc:48-106) | the question for a missing name (53-55), skipcom (92), the reading of the answer (99), fopen and the warning (100-111); trim, which changes nothing as a name has no spaces |
| `List_Model.v` | list_save (apps/c_list.cc:63-107), findbranch for names without dots (lib/findbr.cc:39-107) | the cutting of the line into words, dotted names, precalc_first, run modes and title (33-61), print_item |
| file | cited by | lines named next to the file |
|---|---|---|
| `apps/bm_exp.cc` | `Bmfun_Model.v` | 36-42, 136-150, 139-149, 140-148, 152-176, 181-183 |
| `apps/bm_fit.cc` | `Spline_Model.v` | 129-161, 146-155 |
| `apps/bm_poly.cc` | `Poly_Model.v` | 123-151 |
| `apps/bm_posy.cc` | `Bmfun_Model.v` | 41-46, 137-197, 138-181, 149-156, 157-166, 183-191 |
| `apps/bm_pulse.cc` | `Pulse_Model.v` | 125-147, 158-163, 189-194 |
| `apps/bm_pwl.cc` | `Interp_Model.v` | 35-36, 123-134, 137-143, 145-177, 152-155 |
| `apps/bm_sffm.cc` | `Bmfun_Model.v` | 36-45, 147-153 |
| `apps/bm_sin.cc` | `Bmfun_Model.v` | 44-53, 149-172, 151-155, 157-170, 174-190, 194-196 |
| `apps/bm_tanh.cc` | `Bmfun_Model.v` | 101-119 |
| `apps/c_delete.cc` | `Delete_Model.v` | 38-104, 42-49, 55-57, 75, 77-89, 106-122, 114-120 |
| `apps/c_list.cc` | `List_Model.v` | 63-107, 73, 77-93, 87, 89-91, 95-105, 97-102 |
| `apps/c_modify.cc` | `Fault_Model.v` | 35, 40-55, 49, 61-89, 68-83, 72-74, 91-128, 98, 98-120, 108-113, 130-144, 157-163 |
| `apps/c_prbcmd.cc` | `Probes_Model.v` | 37-120, 47, 48, 51-59, 61-67, 77-79, 89, 90-97, 103-117, 104-111 |
| `apps/c_sweep.cc` | `Fault_Model.v` | 27-30, 37-41 |
| `apps/d_admit.cc` | `Bmfun_Model.v`, `Diode_Model.v`, `Elements_Model.v` | 127-128, 140-141, 147-156, 149-155 |
| `apps/d_cap.cc` | `Elements_Model.v` | 197-199 |
| `apps/d_cccs.cc` | `AC_Model.v`, `Elements_Model.v` | 105-130, 132-156, 135-138, 148 |
| `apps/d_ccvs.cc` | `Elements_Model.v` | 87-113 |
| `apps/d_coil.cc` | `AC_Model.v`, `Elements_Model.v`, `Expand_Model.v` | 218-228, 230-241, 270-289, 313-347, 351-365, 373-376, 387-424, 405-423, 519-527 |
| `apps/d_cs.cc` | `Bmfun_Model.v` | 113-121 |
| `apps/d_diode.model` | `Diode_Model.v`, `Mos_Model.v` | 31, 32, 108-136, 138-188, 142-152, 153, 155-165, 166, 174, 189-363, 195, 196-197, 199-200, 203-220, 222-260, 261-278, 279-334, 336-359, 366-425 |
| `apps/d_logic.cc` | `Logic_Model.v` | 118-236, 379-389, 617-668 |
| `apps/d_mos.model` | `Mos_Model.v` | 109-110, 118-182, 183-284, 184-283, 187-192, 311-334, 336-372, 336-383, 344-357, 358-370, 385-421, 385-432, 393-406, 407-419, 434-454, 483-579, 497-529 |
| `apps/d_mos1.model` | `Mos_Model.v` | 41-92, 65-73, 76-79, 80-87, 94-110, 107, 112-171, 119-133, 135-136, 144-162 |
| `apps/d_mos123.model` | `Mos_Model.v` | 27, 43-69, 70-77, 84-91, 98-99 |
| `apps/d_mos_base.model` | `Mos_Model.v` | 110, 149-158, 171-173 |
| `apps/d_poly_g.cc` | `Mos_Model.v` | 209-216, 218-225 |
| `apps/d_res.cc` | `AC_Model.v`, `Elements_Model.v` | 60, 63, 88-93, 108-114, 117-118, 158-176, 193-198, 200-214, 204 |
| `apps/d_switch.cc` | `Switch_Model.v` | 36, 434-453 |
| `apps/d_trln.cc` | `Trln_Model.v` | 35-43, 69-74, 110-115, 126-129, 152, 327-345, 347-363, 394-401, 409-432, 438-449, 451-491, 459-460, 467-488, 495-501, 505-510, 520-528, 528-531, 534-543 |
| `apps/d_vcg.cc` | `Elements_Model.v` | 86-100 |
| `apps/d_vcr.cc` | `Elements_Model.v` | 90-111 |
| `apps/d_vcvs.cc` | `Elements_Model.v` | 87-88, 101-102 |
| `apps/d_vs.cc` | `AC_Model.v`, `Bmfun_Model.v` | 44 |
| `apps/func_core.cc` | `Expr_Model.v` | 37-91, 97-157 |
| `apps/lang_spice.cc` | `Cond_Model.v`, `Expand_Model.v`, `Spice_Model.v` | 110-630, 225-299, 337-363 |
| `apps/lang_verilog.cc` | `Verilog_Model.v` | 111-393, 676-688 |
| `apps/measure_cross.cc` | `Measure_Model.v` | 75-105, 76, 81-104 |
| `apps/measure_max.cc` | `Measure_Model.v` | 71-82 |
| `apps/measure_min.cc` | `Measure_Model.v` | 71-82 |
| `apps/s__init.cc` | `Probes_Model.v` | 41-66 |
| `apps/s__out.cc` | `Probes_Model.v` | 84-89, 144-151 |
| `apps/s__solve.cc` | `Solver_Model.v`, `Storage_Model.v`, `Trln_Model.v` | 42-94, 50-58, 54-91, 55-90, 65-81, 96-129, 104-116, 151-174, 182-202, 204-213, 240-252, 254-272, 254-275, 274-283 |
| `apps/s_ac.cc` | `AC_Model.v`, `Sweep_Model.v` | 60-66, 66, 171-228, 234-252, 254-269, 260-265, 261-262, 261, 276-294 |
| `apps/s_dc.cc` | `Sweep_Model.v` | 117-134, 135, 361-409, 485-513, 494-512, 515-534, 526-528, 536-615, 555, 575, 598 |
| `apps/s_fo.cc` | `Measure_Model.v`, `Setup_Model.v` | 166-204, 171-185, 201-204, 229-319, 231-278, 280-318, 287, 292-318, 310-318, 349-357 |
| `apps/s_tr.cc` | `Setup_Model.v` |  |
| `apps/s_tr_set.cc` | `Setup_Model.v` | 36-224, 36-172, 47-131, 47-125, 65-124, 133-171, 147-171, 164-171, 176-224, 187-196, 188, 192, 197-212, 216-223 |
| `apps/s_tr_swp.cc` | `Tran_Model.v`, `Trln_Model.v` | 56, 61, 69, 70, 81, 118-170, 140-150, 146-190, 232-254, 256-270, 271-281, 287-558, 304-322, 326-335, 340-347, 349-356, 361-370, 371-406, 412-496, 464-494, 560-603, 605-632 |
| `include/ap.h` | `CS_Model.v`, `Cond_Model.v`, `Opts_Model.v`, `Parse_Model.v`, `Probes_Model.v`, `Spice_Model.v`, `Verilog_Model.v` | 52-57, 73, 82, 85, 86, 87, 92-93, 107, 112-119, 115, 119, 120-121, 126-128, 145, 148-149, 157-161, 158, 172-180, 193-202 |
| `include/bm.h` | `Bmfun_Model.v`, `Cond_Model.v` | 40-41, 50-60, 69-70, 78 |
| `include/constant.h` | `Bmfun_Model.v`, `Diode_Model.v`, `Fault_Model.v`, `Ftos_Model.v`, `Interp_Model.v`, `Measure_Model.v`, `Mos_Model.v`, `Probes_Model.v`, `Pulse_Model.v`, `Setup_Model.v`, `Spline_Model.v`, `Tran_Model.v`, `Value_Model.v`, `Xprobe_Model.v` | 35, 54, 55, 58, 61, 65, 68, 71-73, 73, 81, 83, 84, 94-103, 94, 95-97, 96, 98, 99, 99-100, 100, 105, 108 |
| `include/e_aux.h` | `Port_Model.v` | 29-54, 33-45 |
| `include/e_base.h` | `Delete_Model.v`, `List_Model.v`, `Model_Model.v`, `Probes_Model.v` | 39, 48-50, 75-76, 85 |
| `include/e_card.h` | `Delete_Model.v`, `Fault_Model.v`, `List_Model.v`, `Model_Model.v`, `Spice_Model.v` | 71-131, 71, 100, 117, 148 |
| `include/e_cardlist.h` | `Delete_Model.v`, `List_Model.v`, `Probes_Model.v` | 50-75, 90 |
| `include/e_compon.h` | `Common_Model.v`, `Delete_Model.v`, `Elements_Model.v`, `Params_Model.v`, `Spice_Model.v`, `Trln_Model.v` | 36, 44-48, 56, 59-69, 73, 186, 245-248, 255-256, 266-272, 290 |
| `include/e_elemnt.h` | `AC_Model.v`, `Elements_Model.v`, `Fault_Model.v`, `Port_Model.v`, `Solver_Model.v`, `Switch_Model.v`, `Trln_Model.v` | 41-44, 41, 143, 197-211, 213-222, 224-229, 231-235, 247-252, 254-257, 267-275, 281-286, 288-298, 310-315, 317-320, 322-330, 332-337, 339-342, 355-360, 362-366, 391-394, 464-467, 469-480, 482-490 |
| `include/e_logicmod.h` | `Logic_Model.v` | 49-67, 67 |
| `include/e_logicnode.h` | `Logic_Model.v` | 36-46, 70 |
| `include/e_logicval.h` | `Logic_Model.v` | 29, 50-56, 59-60, 68-73 |
| `include/e_model.h` | `Model_Model.v` | 70 |
| `include/e_node.h` | `Expand_Model.v`, `Nodemap_Model.v`, `Trln_Model.v` | 30-36, 36, 95-104, 105-109, 126-128, 141-149 |
| `include/e_storag.h` | `Storage_Model.v` | 29, 58-63, 64-67 |
| `include/e_subckt.h` | `Tran_Model.v` | 62 |
| `include/io_.h` | `Out_Model.v` | 31, 35-36, 50-70, 72, 74 |
| `include/io_error.h` | `Opts_Model.v` | 32-38 |
| `include/l_compar.h` | `Opts_Model.v`, `Tran_Model.v` | 28-32, 43-46 |
| `include/l_denoise.h` | `Bmfun_Model.v`, `Interp_Model.v`, `Solver_Model.v`, `Spline_Model.v`, `Sweep_Model.v` | 31-39, 41-46, 42-47, 50-55 |
| `include/l_dispatcher.h` | `Dispatcher_Model.v` | 87-98 |
| `include/l_lib.h` | `Findf_Model.v`, `Ftos_Model.v` | 37-42, 58-60 |
| `include/l_stlextra.h` | `Delete_Model.v`, `Nodemap_Model.v`, `Probes_Model.v` | 41-48, 43-49 |
| `include/m_base.h` | `Ftos_Model.v`, `Value_Model.v` | 312 |
| `include/m_base_vams.h` | `Parse_Model.v`, `Value_Model.v` | 152-159 |
| `include/m_cpoly.h` | `Bmfun_Model.v`, `Diode_Model.v`, `Elements_Model.v`, `Interp_Model.v`, `Poly_Model.v`, `Spline_Model.v` | 40-66, 44-66, 44-50, 57, 63-65, 64-65, 68-84, 81, 82-89, 95-98, 95-105 |
| `include/m_divdiff.h` | `Poly_Model.v` | 48-56 |
| `include/m_expression.h` | `Expr_Model.v`, `Parse_Model.v` | 70-213, 236 |
| `include/m_interp.h` | `Diode_Model.v`, `Interp_Model.v` | 32-89, 57-58 |
| `include/m_matrix.h` | `Matrix_Model.v`, `Trln_Model.v` | 123-132, 222-237, 276, 373-391, 464-480, 529-555, 536-539, 538, 542, 549-553, 551, 552, 559-566, 570-576, 596-604, 609-638, 609-621, 626-638, 644-659, 673-704, 706-717, 720-728, 732-745, 751-771, 752-771, 777-806, 778-807, 811-829, 818-820, 821, 824-828, 836-875, 845-852, 861, 867-871, 885-906 |
| `include/m_matrix_solver.h` | `Matrix_Model.v`, `Port_Model.v` | 32-34, 70-72, 80-82, 187-229, 199-225, 231-246, 247-267, 269-288, 290-322 |
| `include/m_phase.h` | `Xprobe_Model.v` | 31-58 |
| `include/m_spline.h` | `Spline_Model.v` | 42-63 |
| `include/m_wave.h` | `Interp_Model.v`, `Measure_Model.v` | 30-34, 32, 59-63, 67-71, 97-100, 107-111 |
| `include/md.h` | `Fault_Model.v`, `Findf_Model.v`, `Lines_Model.v`, `Xopen_Model.v`, `Xprobe_Model.v` | 70-73, 71, 72, 86, 86-87, 87 |
| `include/mode.h` | `Cond_Model.v`, `Opts_Model.v`, `Probes_Model.v` | 29, 30-35, 37-44, 48 |
| `include/s_tr.h` | `Setup_Model.v`, `Tran_Model.v` | 33-47, 50-63, 95-105, 95-103, 102-113 |
| `include/u_cardst.h` | `Fault_Model.v` | 31-33, 40-44, 40-43, 58-74, 76-82 |
| `include/u_lang.h` | `Opts_Model.v` |  |
| `include/u_limit.h` | `Mos_Model.v` | 50-69, 71-114 |
| `include/u_nodemap.h` | `Nodemap_Model.v`, `Probes_Model.v` | 47 |
| `include/u_opt.h` | `CS_Model.v`, `Expand_Model.v`, `Opts_Model.v`, `Storage_Model.v`, `Xprobe_Model.v` | 33-70, 34-43, 44-67, 83, 90-180 |
| `include/u_parameter.h` | `Fault_Model.v`, `Scope_Model.v`, `Setup_Model.v` | 46-60, 57, 96-184, 97-99, 101-186, 101, 131, 142, 148-149, 504-539, 550-653, 551-598, 629-653 |
| `include/u_prblst.h` | `Probes_Model.v` | 62-69 |
| `include/u_probe.h` | `Probes_Model.v` | 30-35, 39 |
| `include/u_sim_data.h` | `Bmfun_Model.v`, `Expand_Model.v`, `Probes_Model.v`, `Setup_Model.v`, `Solver_Model.v`, `Tran_Model.v` | 39, 60-66, 62, 69-72, 78, 93, 121-123, 124, 125, 126, 132-138, 139-152, 148, 153-159 |
| `include/u_time_pair.h` | `Bmfun_Model.v`, `Tran_Model.v` | 29-31, 47-63, 54-60 |
| `include/u_xprobe.h` | `Xprobe_Model.v` | 30, 32-36, 47-50, 51-54, 55-58, 59-62, 72 |
| `lib/ap_construct.cc` | `CS_Model.v`, `Findf_Model.v`, `Lines_Model.v` | 50-65, 94-105, 147-170, 227-270 |
| `lib/ap_convert.cc` | `CS_Model.v`, `Fault_Model.v` | 37-45, 56-69, 60-62, 71-129, 90-112, 131-138, 144-162, 169-188, 195-207, 215-227, 234-250, 241-245, 261-345, 291-338, 303-338, 311-337 |
| `lib/ap_error.cc` | `CS_Model.v` | 37-48 |
| `lib/ap_get.cc` | `Opts_Model.v` | 30-78 |
| `lib/ap_match.cc` | `CS_Model.v` | 30-87, 38-76, 62-64, 89-104, 106-109 |
| `lib/ap_skip.cc` | `CS_Model.v` | 35-41, 46-52, 57-66, 82-91, 96-113, 118-130, 135-147 |
| `lib/bm.cc` | `AC_Model.v`, `Bmfun_Model.v` | 69-73, 75-84, 86-90, 92-117, 94-100, 174-179 |
| `lib/bm_cond.cc` | `Cond_Model.v` | 32, 36-37, 54-61, 67-72, 101-197, 103-107, 109-169, 110-119, 171-196, 194, 204, 219-230, 221, 264-287 |
| `lib/c_attach.cc` | `Findf_Model.v` | 55-97, 60-82 |
| `lib/c_file.cc` | `Findf_Model.v` | 43-89, 54-60, 72, 80-81 |
| `lib/d_subckt.cc` | `Delete_Model.v`, `Expand_Model.v` | 44, 72-74, 103, 217-251, 222-236 |
| `lib/e_base.cc` | `Delete_Model.v`, `Probes_Model.v`, `Xprobe_Model.v` | 37, 40-41, 43-61, 97-144, 97-106, 108-144, 120-128, 147-168, 172-179 |
| `lib/e_card.cc` | `Fault_Model.v`, `Model_Model.v` | 91-107, 133-145, 204-219 |
| `lib/e_cardlist.cc` | `AC_Model.v`, `Delete_Model.v`, `Expand_Model.v`, `Probes_Model.v`, `Solver_Model.v`, `Tran_Model.v` | 89-94, 89-101, 105-107, 166-185, 340-358, 362-370, 437-462, 507-519, 522-588, 549-553, 556-560, 571-586 |
| `lib/e_ccsrc.cc` | `Elements_Model.v` | 42-50, 48-50 |
| `lib/e_compon.cc` | `Common_Model.v`, `Expand_Model.v`, `Fault_Model.v`, `Interp_Model.v`, `Model_Model.v`, `Mos_Model.v`, `Params_Model.v` | 29-50, 53-57, 59-107, 59-89, 91-107, 229-237, 312-325, 365-398, 372-374, 473-486, 586-603, 691-709, 727-744, 732-743, 746-762, 781-802, 825-839, 874-934, 877, 883-910, 884, 891-908, 893, 901, 901-902, 913, 915, 923, 925, 932, 994-1027 |
| `lib/e_elemnt.cc` | `AC_Model.v`, `Elements_Model.v`, `Fault_Model.v`, `Port_Model.v`, `Storage_Model.v`, `Xprobe_Model.v` | 72-80, 74, 171-175, 191-199, 235-244, 246-258, 260-271, 285-374, 369-374, 376-478, 384-391, 432-435, 441-445, 447-478, 449, 471-474, 480-543, 487-494, 495-501, 545-576 |
| `lib/e_logicnode.cc` | `Logic_Model.v`, `Tran_Model.v` | 69-76, 103-221, 224-266, 292-307, 309-327 |
| `lib/e_logicval.cc` | `Logic_Model.v` | 27-33, 35-41, 43-49, 51-53, 55-61 |
| `lib/e_node.cc` | `Expand_Model.v`, `Port_Model.v`, `Xprobe_Model.v` | 75-80, 115-119, 117-119, 120-121, 154-164, 157-160, 180-190, 205-219 |
| `lib/e_storag.cc` | `Elements_Model.v`, `Storage_Model.v` | 32-53, 85-95, 88-104, 97-104, 127-173, 175-206, 208-218 |
| `lib/findbr.cc` | `Fault_Model.v`, `List_Model.v` | 39-107, 44, 46-48, 54-64, 66-106 |
| `lib/io_findf.cc` | `Findf_Model.v` | 37, 37-67, 46-66, 50-52, 53-56 |
| `lib/io_out.cc` | `Out_Model.v` | 60-72, 67-69, 100-152, 112-126, 129-136, 148-150, 161-223, 170, 192-221 |
| `lib/io_xopen.cc` | `Xopen_Model.v` | 48-106, 48-113, 60, 61-78, 63, 67, 79-84, 95, 96-99 |
| `lib/l_dispatcher.cc` | `Dispatcher_Model.v` | 34-47, 49-68, 78-107, 84-89, 89-105, 96-99 |
| `lib/l_ftos.cc` | `Ftos_Model.v`, `Model_Model.v` | 46, 47, 56-61, 63-66, 68-264, 98-106, 129-256, 136-142, 143-220, 157-160, 161-164, 166-174, 175-187, 195-203, 206-217, 226-228, 235-255, 239-242 |
| `lib/l_pmatch.cc` | `Params_Model.v` | 35-39 |
| `lib/l_trim.cc` | `Lines_Model.v` | 30-37, 32-35 |
| `lib/l_wmatch.cc` | `Wmatch_Model.v` | 34-37, 39-60, 62-65 |
| `lib/m_base_in.cc` | `Parse_Model.v` | 61-104, 65-82, 84-99, 119-156, 128-147 |
| `lib/m_base_math.cc` | `Value_Model.v` | 34-67 |
| `lib/m_expression_dump.cc` | `Parse_Model.v` | 37-151, 43-137, 54-76 |
| `lib/m_expression_in.cc` | `Parse_Model.v` | 62-276, 278-281 |
| `lib/m_expression_reduce.cc` | `Expr_Model.v`, `Value_Model.v` | 33-81, 33-106, 83-106 |
| `lib/m_fft.cc` | `Fft_Model.v` | 28-66, 32-44, 37-42, 38-41, 46-58, 53-56, 60-63 |
| `lib/m_spline.cc` | `Spline_Model.v` | 72-113, 75-76, 77-79, 87-245, 87-90, 93, 93-102, 115-135, 120-300, 121, 125, 130, 137-172, 141, 142, 145, 148, 150, 155, 157, 174-246, 179, 179-195, 186, 189, 191, 194, 198, 198-218, 200, 212, 222-232, 229, 235, 238, 257-303, 261, 272 |
| `lib/u_function.cc` | `Expr_Model.v` | 26-83 |
| `lib/u_lang.cc` | `Opts_Model.v` |  |
| `lib/u_nodemap.cc` | `Nodemap_Model.v`, `Probes_Model.v` | 28, 30-34, 66-78, 68-80, 83-99 |
| `lib/u_opt1.cc` | `Elements_Model.v`, `Opts_Model.v`, `Setup_Model.v`, `Solver_Model.v`, `Spline_Model.v`, `Storage_Model.v`, `Tran_Model.v` | 28-121, 34-110, 65, 85-86, 90-92, 90-101, 101 |
| `lib/u_opt2.cc` | `Opts_Model.v` | 41-49, 55-206, 60-190, 62-185, 63-184, 117-134, 173-176, 200-204, 211-319, 270-272 |
| `lib/u_parameter.cc` | `Scope_Model.v` | 108-203 |
| `lib/u_prblst.cc` | `Probes_Model.v` | 32-40, 56-59, 65-68, 78-98, 92-94, 104-107, 116-122, 119, 130-193, 158-171, 195-198, 200-217, 222-318, 238-247, 253-262, 264-315 |
| `lib/u_probe.cc` | `Probes_Model.v` | 30-41, 37-40, 43-54, 50-53, 59-71, 66-69, 78-86, 92-99 |
| `lib/u_sim_data.cc` | `Expand_Model.v`, `Setup_Model.v` | 40, 211-224, 229-235, 240-246, 251-257, 271-272, 298-301 |
| `lib/u_xprobe.cc` | `Xprobe_Model.v` | 28-58 |

## 5. Findings

Each is a theorem whose name ends in `_refuted` (or, at the end, an observation made while reading that is
not proved).  "Location" is the place in `/repo`.

| theorem | location | what happens |
|---|---|---|
| `C05_no_nodes_refuted` | include/m_matrix.h fbsubt | the transposed substitution on a matrix without nodes reads outside its arrays |
| `C06_unmarked_clear_refuted` | include/m_matrix_solver.h lu_decomp(true) | clearing the matrix without marking the nodes changed, then decomposing partially, gives wrong factors (callers must decompose fully) |
| `C07_wider_accumulator_refuted` | include/m_matrix_solver.h | LU_COPY and LU_INPLACE can differ when the dot product is accumulated in a wider type |
| `C08_noise_suppression_refuted` | include/e_elemnt.h dampdiff | with noise suppression a change judged to be noise is not loaded but recorded as loaded, so the matrix drifts from the values |
| `C13_final_star_zero_refuted` | lib/l_wmatch.cc | a final `*` needs at least one character |
| `C13_literal_star_refuted` | lib/l_wmatch.cc | a `*` in the label is not an ordinary character |
| `C14_check_leaves_the_line_refuted` | lib/ap_error.cc / include/ap.h check | `check` at the end of the text moves the cursor past it |
| `C14_ctof_failure_eats_comma_refuted` | lib/ap_convert.cc:268-271 | a failing `ctof` consumes a comma |
| `C14_skipto_failure_reported_as_success_refuted` | lib/ap_skip.cc skipto1 | a failing `skipto1` reports success |
| `C15_later_alternative_after_blank_refuted` | lib/ap_match.cc:38-76 | after a failed alternative the blanks are not skipped again, so later alternatives are not found |
| `C15_unclosed_brace_refuted` | lib/ap_match.cc | an unclosed `{` makes the matcher read beyond the pattern |
| `C16_ctob_second_comma_refuted` | lib/ap_convert.cc:144-162 | a boolean swallows two commas |
| `C16_smallest_int_refuted` | lib/ap_convert.cc:169-188 | reading the smallest int overflows |
| `C16_sign_alone_accepted_refuted` | lib/ap_convert.cc:169-188 | a sign alone is read as 0, successfully |
| `C17_sign_alone_accepted_refuted` | lib/ap_convert.cc ctof | same for floating point |
| `C17_huge_exponent_refuted` | lib/ap_convert.cc ctof | an exponent beyond int overflows (undefined) |
| `C48_long_line_refuted` | lib/ap_construct.cc getlines | a line longer than the buffer can lose a `+` |
| `C12_case_option_change_refuted` | lib/u_nodemap.cc | a node named with capitals while case sensitive is a different node once the case option changes |
| `C22_uninstall_restores_refuted` | lib/l_dispatcher.cc | uninstalling a replacement does not bring the stashed object back |
| `C22_empty_name_ignored_refuted` | lib/l_dispatcher.cc | an empty name is registered |
| `C45_coarse_comparison_refuted` | lib/e_compon.cc set_param_by_name | a parameter set on shared data is lost if operator== ignores it |
| `C46_thirty_one_files_refuted` | include/io_.h | the 31st file uses the sign bit, the 32nd is dropped silently |
| `C46_pack_mixes_files_refuted` | lib/io_out.cc:170 | packing shares one `old` character between files |
| `C46_carriage_return_refuted` | lib/io_out.cc | `\r` after `\b` at column 0 is suppressed for later files |
| `C47_system_names_refuted` | lib/e_compon.cc | `$angle`, `$hflip`, `$vflip` set another parameter than the listed one, `$sflip` cannot be set |
| `C47_index_too_big_refuted` | lib/e_compon.cc set_param_by_index | a too big index writes outside the array |
| `C23_release_loops_refuted` | apps/s_tr_swp.cc | in a release build, non-convergence one tick after the last accepted time alternates for ever |
| `C23_dtmax_below_dtmin_refuted` | apps/s_tr_swp.cc | dtmax below half of dtmin divides by zero |
| `C26_lin_points_refuted` | apps/s_dc.cc | a number of points given with `lin` is used as the step |
| `C26_reverse_refuted` | apps/s_dc.cc | a reverse sweep leaves out the last point |
| `C26_reverse_loop_refuted` | apps/s_dc.cc | reverse with loop visits only the start |
| `C27_overshoot_refuted` | apps/s_ac.cc | a linear sweep overshoots the stop frequency |
| `C28_final_step_refuted` | include/m_interp.h | a repeated last key is an error at exactly that key |
| `C29_single_point_refuted` | apps/bm_pwl.cc | a single point list fails when prepared twice |
| `C29_changed_refuted` | apps/bm_pwl.cc precalc_last | changed points are appended to the old ones, which stay in use |
| `C32_product_refuted` | include/m_cpoly.h FPOLY1::operator*= | the slope of a product is wrong (value already updated) |
| `C37_no_coefficients_refuted` | apps/bm_poly.cc | no coefficients: reads outside the vector |
| `C33_gear_unequal_refuted` | lib/e_storag.cc | Gear on unequal steps is not exact for quadratics |
| `C36_long_pulse_refuted` | apps/bm_pulse.cc | a pulse longer than its period has a corner that is not announced |
| `C38_threshold_differs_refuted` | apps/d_switch.cc | at exactly the on threshold the switch is off at the operating point and on in the transient |
| `C54_late_undo_refuted` | lib/e_logicnode.cc | a transition made later than its event time is not undone exactly |
| `C55_offset_levels_refuted` | lib/e_logicnode.cc to_logic | with a low level other than 0 a level does not read back as itself |
| `C42_short_window_refuted` | apps/measure_average.cc, measure_integral.cc | average over one point is not a number; a window after the last point reads outside the waveform |
| `C44_exact_power_refuted` | apps/s_fo.cc to_pow_of_2 | 64 gives 128; from 2^30 on it overflows |
| `C56_last_refuted` | apps/measure_slewrate.cc | `last` stops at a passage that crosses both levels within one step |
| `C57_trailing_ground_refuted` | apps/lang_spice.cc parse_ports | a header ending with ground or a repeated name leaves a stray port |
| `C58_last_homotopy_solve_refuted` | apps/s__solve.cc:96-129 | the final solve of a homotopy keeps the homotopy gmin in the matrix |
| `C20_modulo_refuted` | include/m_base.h | integer % real has its operands reversed |
| `C20_verilog_minus_refuted` | include/m_base_vams.h | unary minus loses the verilog flavour, so a later division is done differently |
| `C20_verilog_compare_refuted` | include/m_base_vams.h | comparison of reals loses the verilog flavour |
| `C19_unary_refuted` | include/m_expression.h:181 | a unary operator on an unknown name loses its operator |
| `C19_integer_definition_refuted` | lib/m_expression_reduce.cc | an integer-typed definition is inlined without conversion |
| `C19_overflow_refuted` | lib/m_expression_reduce.cc | reassociating constants overflows int where the original does not |
| `C19_ieee_refuted` | lib/m_expression_reduce.cc | reassociation changes the rounded value |
| `C19_abs_of_string_refuted` | apps/func_core.cc:58-63 | abs of a string drops its argument from the expression |
| `C21_counter_refuted` | lib/u_parameter.cc:178-203 | the recursion counter is not restored after an exception, so later evaluations fail earlier |
| `C21_string_argument_refuted` | include/u_parameter.h:331-346 | a string given for an untyped parameter is ignored |
| `C60_longest_refuted` | lib/l_ftos.cc:68-106 | length 34, which `ftos` accepts, fills the whole 40-character row and leaves no terminator (the options clamp the length to 20, so only a direct caller can ask for it) |
| `C60_near_limit_refuted` | lib/l_ftos.cc:113-128 | a number just under the limit is printed rounded up; the value read back is past the limit and prints as Inf |
| `C61_conditional_operand_refuted` | lib/m_expression_dump.cc:119-133 | a conditional is printed without parentheses around the whole: `(a?b:c)+d` prints as `((a)? (b):(c) + d)`, which reads as `a ? b : (c+d)` |
| `C61_angle_argument_refuted` | lib/m_expression_in.cc:126-129 | `ctos` skips a comma behind the closing bracket, so `f(<a>,b)` is refused although `f(b,<a>)` is accepted |
| `C61_leading_blank_refuted` | lib/m_expression_in.cc:146, lib/ap_match.cc | with a blank in front only the first alternative of a pattern is tried: ` -x` is read, ` +x` and ` !x` are refused |
| `C61_stray_operator_refuted` | lib/m_expression_in.cc:260, lib/ap_match.cc | the backslashes in the pattern for the logical or are taken literally (it reads as three alternatives): a single backslash is accepted as a binary operator that evaluation does not know; and a comma behind any operator is skipped |
| `C62_backslash_refuted` | lib/ap_convert.cc:107-111 | a doubled backslash does not stand for a backslash; no quoted text can contain one |
| `C63_digit_name_refuted` | apps/lang_verilog.cc:233-244, 267-284 | a node name such as `1_x` is printed as `\1_x ` and comes back as `\1_x`: the reader drops the backslash only from names of letters and digits |
| `C63_stop_in_name_refuted` | apps/lang_verilog.cc:239-243 | names with special characters are printed without escaping: a node `x)y` does not come back (the source says: probably need the escape) |
| `C63_paren_in_text_refuted` | apps/lang_verilog.cc:183, 755 | a text value holding a parenthesis is cut at it when read, and the rest of the line becomes the label |
| `C63_order_expression_refuted` | apps/lang_verilog.cc:199-202 | parameters by order: `#(a + b)` sets three parameters, `#((a+b))` sets none and makes `a+b` a port |
| `C63_escaped_at_end_refuted` | apps/lang_verilog.cc:263-265 | an escaped name that goes to the end of the line makes the reader step beyond the text: the next character is read out of bounds |
| `C63_paramset_value_refuted` | apps/lang_verilog.cc:163, 733 | a paramset value with a parenthesis is printed bare but read as a word: it comes back empty and the rest of the line is not read |
| `C64_one_point_refuted` | lib/m_spline.cc:126-131, 150, 234 | a fit with one point and no boundary slopes reads outside its arrays for every order from 1 to 3 |
| `C64_two_points_refuted` | lib/m_spline.cc:218, 234 | a cubic through two points is extrapolated below with slope zero: the slope is compared with the placeholder NOT_VALID left in the array and taken for noise |
| `C64_two_points_slope_refuted` | lib/m_spline.cc:234-235 | the same with a slope given below stops at an assert |
| `C64_small_slope_refuted` | lib/m_spline.cc:234-235 | a cubic with a slope below that is small beside the slope at the second point stops at an assert, because it is rounded to zero first |
| `C64_rounding_refuted` | lib/m_spline.cc:235 | the assert compares doubles for equality: `fit(1,3 2,1 4,5 order=3 below=3)` fails it through rounding alone |
| `C64_both_slopes_refuted` | lib/m_spline.cc:160-161 | order 2 with both boundary slopes given: the slope at the first point is not the given one |
| `C65_semicolon_hangs_refuted` | apps/lang_spice.cc:135-175 | counting the nodes takes no word at a semicolon and does not stop there: `D1 a b mod ; comment` never ends |
| `C65_bare_params_refuted` | apps/lang_spice.cc:165-171 | `X1 a b filt params: w=1` (nodes without parentheses): filt becomes a node and `params:` the type |
| `C65_bare_value_refuted` | apps/lang_spice.cc:145-156 | `Q1 c b e mod 2` with an optional fourth node: mod becomes a node and `2` the type |
| `C65_too_many_nodes_refuted` | apps/lang_spice.cc:137-144, 187 | more nodes in parentheses than the device takes: an assertion fails instead of a message |
| `C65_model_value_refuted` | apps/lang_spice.cc:403-407 | `.model d1 d {x}`: the name of the value is asked of a null pointer |
| `C65_print_value_refuted` | apps/lang_spice.cc:783-787 | values are printed without quotes: a value with a comma, or an unnamed value that is not a number, is read back differently |
| `C65_trailing_text_refuted` | apps/lang_spice.cc:410-445 | text behind the closing parenthesis of the parameters is dropped without a message |
| `C65_node_named_poly_refuted` | apps/lang_spice.cc:243-251 | with keywords between nodes allowed, a node called poly (pwl, vcr ...) ends the nodes |
| `C66_continue_refuted` | apps/s_tr_set.cc:38, 95, 117-124 | after `tran step stop` the start is unset, so that a following `tran` (or `tran 0`, `tran step`) takes the length of the last interval from the value NOT_INPUT and sets a stop time of about 1.7e308 |
| `C66_spice_order_refuted` | apps/s_tr_set.cc:72-75 | `tran step stop start` in the order of spice with 0 < start < step is read as start stop step |
| `C66_limits_refuted` | apps/s_tr_set.cc:154-171 | a negative dtmax, a dtmin above dtmax and skip=0 (an infinite dtmax) are accepted |
| `C66_total_refuted` | apps/s_tr_set.cc:100, 113 | a single argument that is quoted NA, or an expression with a negative value, fails an assertion |
| `C66_fourier_negative_refuted` | apps/s_fo.cc:286-304 | a negative frequency step is accepted and gives an interval that ends before it begins |
| `C67_ccvs_sweep_refuted` | apps/d_ccvs.cc:43-113 | a current controlled voltage source has no dc_advance: a dc sweep of its value fails an assertion, or without assertions keeps using the value from before the sweep |
| `C67_cccs_inode_sweep_refuted` | apps/d_cccs.cc:73-87 | a dc sweep of the gain of a current controlled current source that senses an inductor with a current node sets the intercept and not the slope, so the gain from before the sweep stays in force |
| `C67_ccvs_inode_refuted` | apps/d_ccvs.cc:87-113 | a linear current controlled voltage source that senses an inductor with a current node multiplies its loaded coefficient by -1/shortckt again in every iteration |
| `C67_vccap_probe_refuted` | apps/d_cap.cc:107-131, lib/e_elemnt.cc:369-374 | the current probe of a voltage controlled capacitor multiplies by the control voltage where the current that flows is in proportion to its own voltage |
| `C68_probe_changes_result_refuted` | apps/d_vs.cc:152-160, d_cs.cc:136-144, include/e_elemnt.h:464-490 | a voltage or current source without ac value that has a probe is, in an ac analysis after an operating point, a source of its dc value; without a probe it is 0 |
| `C68_sensing_probe_refuted` | apps/d_cccs.cc:146-149, d_ccvs.cc:123-132, lib/e_elemnt.cc:441-445 | the ac current probe of a current controlled source that senses a fixed source leaves out the part that comes from the value of that source |
| `C68_transcap_probe_refuted` | apps/d_cap.cc:65, 93-96 | the ac current probe of a transcapacitor multiplies by the voltage of its output instead of its input |
| `C68_ccvs_without_op_refuted` | apps/d_ccvs.cc:50 | a linear current controlled voltage source in an ac analysis without operating point fails an assertion (and with assertions off has gain 0): its ac_begin does not read the value as that of the other sources does |
| `C68_small_resistor_refuted` | apps/d_res.cc:193-214, lib/e_elemnt.cc:191-199 | a resistor below shortckt has the conductance 1/shortckt in an ac analysis after an operating point, and 1/value (for 0 a division by zero) in one without |
| `C69_command_ends_refuted` | apps/c_prbcmd.cc:103-117, lib/u_prblst.cc:130-193 | a print, plot, alarm or store command whose text has a stray = (or [ or ]) never ends: the loop reads an empty word, adds nothing and does not move on |
| `C69_command_in_text_refuted` | lib/u_prblst.cc:176-190, lib/ap_error.cc | a range followed by // at the end of the text moves the cursor beyond the end, and the loop then reads outside the text |
| `C69_each_object_once_refuted` | lib/u_prblst.cc:234-262 | a name such as *.* is looked up forward and backward, and every object inside gets two probes |
| `C69_name_from_zero_refuted` | lib/u_prblst.cc:147-150 | a name that begins with 0, such as v(05), is taken for ground although there is a node of that name |
| `C69_remove_several_refuted` | lib/u_prblst.cc:78-98 | -v(1,out) removes only the first of the two probes that v(1,out) adds |
| `C69_remove_backward_refuted` | lib/u_prblst.cc:65-68, 250-262 | a probe added with the backward name a.x1 is not removed by -v(a.x1), since its label is v(x1.a) |
| `C69_wave_after_delete_refuted` | lib/e_base.cc:154-168, lib/u_prblst.cc:32-40 | destroying a stored node or element takes its probe out of the list but not its wave out of the array: the probes behind it are found with the wave of their neighbour |
| `C69_wave_in_bounds_refuted` | lib/e_base.cc:154-168, apps/s__init.cc:41-66 | an analysis whose setup throws leaves its own mode with the waves of the analysis before: looking up a wave reads outside the array |
| `C69_wave_after_command_refuted` | apps/c_prbcmd.cc:47, lib/e_base.cc:154-168 | any print, plot, alarm or store command resets the mode, after which no wave of the last analysis is found |
| `C70_parallel_conductance_refuted` | apps/d_admit.cc:151, apps/d_diode.model:319-337 | with GP above zero the current put into the forward evaluation includes the current of GP, which is then added again: a settled forward diode always carries less than the sum of the junction and GP |
| `C70_limit_refuted` | apps/d_diode.model:205-217 | the spice style limit reads the last current (_y1.f0) as the last voltage, and the limited voltage is not the one the line is put at: with flag 040, and in every mos junction, a state can settle at a current with no relation to the curve (here less than 1/50 of it) |
| `C70_breakdown_refuted` | apps/d_diode.model:266, 289-313 | BV has no effect: has_good_value(bv) is tested without the negation, so the breakdown branch is never taken when bv is given; the default style does not read it |
| `C70_defined_refuted` | apps/d_diode.model:215 | log(volts/vt) of a negative voltage (NaN) in the limit, when vcrit is negative (saturation current above vt/sqrt 2) and the last current is below -2vt |
| `C70_charge_refuted` | apps/d_diode.model:178-186 | the charge is summed with the mean capacitance of each step, so it depends on the path: back at the same voltage there can be another charge |
| `C71_first_step_refuted` | apps/d_trln.cc:394-401, 495-501, include/m_interp.h:82-88 | the line starts with a sample at time 0 and the operating point adds another at the same time, so a first time step of exactly one delay, which the line itself offers as the latest next time, looks up a doubled key and stops with an exception; reached when dtmax/100 is at least the delay |
| `C71_dc_wire_refuted` | apps/d_trln.cc:394-416 | at the operating point a transmission line is two separate resistors z0, not a pair of wires: an open line driven with 1 V has 0 V at the far end, and a transient starts from that |
| `C72_input_offset_refuted` | lib/bm.cc:86-90, include/bm.h:70, apps/bm_posy.cc:193, apps/bm_tanh.cc:117, apps/d_admit.cc:156 | with `ioffset` a function stores the shifted argument as the argument of the line, but the line is loaded as a line in the voltage: a voltage controlled element with posy x^2 and ioffset 1 at 1 V should carry 4 A and carries 0 A |
| `C72_output_offset_refuted` | lib/bm.cc:83, apps/d_cs.cc:121, apps/d_vs.cc:121-140 | `ooffset` is added to f0, but an independent source takes its value from f1: the output offset has no effect on a source |
| `C72_exp_endless_refuted` | apps/bm_exp.cc:139 | exp with a period of zero (or negative) never ends its loop over the periods |
| `C72_exp_order_refuted` | apps/bm_exp.cc:163-175 | when the fall of exp begins before the rise, the corner of the rise is not announced to the step control |
| `C72_sin_delay_refuted` | apps/bm_sin.cc:176-187 | the zeros and peaks announced by sin are counted from time zero, not from the delay: with a delay the announced zero can be a peak |
| `C72_sin_past_refuted` | apps/bm_sin.cc:176, 188-196 | the events of sin are in the time shifted by ioffset but used as simulation time: with a negative ioffset the announced event is in the past and the assert fails |
| `C72_sin_near_refuted` | apps/bm_sin.cc:176, 196 | the margin 1e-6 of a period is below the smallest step at high frequency: at 1 GHz with dtmin 1e-12 the assert that the event is more than dtmin away can fail |
| `C72_ac_delay_refuted` | lib/bm.cc:107-114 | a delay of more than 100000 periods is dropped from the ac transfer after a message that is off by default |
| `C72_posy_constant_refuted` | apps/bm_posy.cc:157-165 | at argument zero (and for all negative arguments without odd and even) a term with exponent zero counts 1 instead of its coefficient |
| `C72_posy_slope_refuted` | apps/bm_posy.cc:145-166 | at argument zero the slope reported by posy is zero, even for a straight line |
| `C72_posy_odd_even_refuted` | apps/bm_posy.cc:169-175 | posy with both odd and even: the value is odd, the slope has the wrong sign |
| `C73_unknown_name_refuted` | apps/c_modify.cc:122-126, lib/ap_skip.cc:96-113 | After a name that matches nothing, skiparg stops at the `=` or at the number, the loop condition `is_alpha` is false, and the remaining items of the modify or fault command are dropped; only the one warning is given. |
| `C73_no_value_refuted` | apps/c_modify.cc:111, lib/ap_convert.cc | `modify r1` with no number, or with `{expression}`, sets the value to 0 with no message: the state of ctof is not looked at. |
| `C73_dotted_refuted` | apps/c_modify.cc:119, lib/findbr.cc:84-86 | A dotted name with wildcards such as `r1.x*` changes only the element in the first subcircuit: the iterator returned is in the inner list, and the search goes on there. |
| `C73_deleted_refuted` | include/u_cardst.h:40-44, lib/e_card.cc:204-219 | unfault writes through a pointer kept since fault. Elements of a subcircuit are deleted and made again before the next analysis, so fault of one of them, an analysis, and unfault write to freed memory; so does fault, delete, unfault. |
| `C73_not_element_refuted` | apps/c_modify.cc:50-51, 109-110 | modify of a subcircuit instance, or modify or fault of a device that is no ELEMENT, fails a cast: an assertion, or a null pointer without assertions. Only fault of a subcircuit instance is refused with a message. |
| `C74_forward_bulk_refuted` | apps/d_mos.model:524, 549-559 | With the bulk forward biased the device is evaluated with the bulk at 0, but its bulk slope is loaded against the real bulk voltage. The current in the circuit is the equation at vbs=0 plus gmb*Vbs, and the ids probe does not show it (1 A shown, 1.5 A carried). |
| `C74_cap_history_refuted` | apps/d_mos.model:349-370, 398-419 | At vds=0 and less than 0.1 V above the threshold, only the side that acts as drain is scaled by 10*vgst. Which side that is depends on the orientation the device had before, so at the same voltages the gate to source capacitance can have two values (one twice the other at vgst=0.05). |
| `C74_cap_jump_refuted` | apps/d_mos.model:359-369, 408-418 | The gate to source capacitance jumps from a sixth of the oxide capacitance to zero at vgst=-PHI/2: the factor (1+vgst/PHI)^2 is only cut off at half its range. |
| `C74_hot_refuted` | apps/d_mos1.model:94-98, 121-123 | With the default parameters the surface potential at 327 degrees is negative and its square root is taken: the current and the slopes are not numbers, with no message. |
| `C75_z_controlled_refuted` | lib/e_elemnt.cc:432-433, 471-472 | The probe z of a controlled source (and of every element whose current depends on another voltage) subtracts its transfer coefficient from the admittance at its output as if it were a conductance there: a current source of half the voltage of another node, across 1 ohm, shows 2 ohm. |
| `C76_long_name_refuted` | lib/e_base.cc:113-114 | The name of an ac probe is copied with strcpy into a buffer of BUFLEN+1 characters: print ac with a name of more than 256 characters before the parenthesis writes past its end. |
| `C76_order_refuted` | lib/e_base.cc:105 | Only numbers below 1 are rounded to multiples of the option floor, so with a floor that does not divide 1 (floor=.6) 0.95 prints as 1.2 while 1 prints as 1. |
| `C77_two_values_refuted` | lib/bm_cond.cc:149-157 | A source with two plain values, V1 1 0 5 7, uses 5 in op and dc but 7 in a transient analysis; no warning is given, because the first is filed under dc and the second without a label. |
| `C77_name_refuted` | lib/bm_cond.cc:125-157, 190; apps/bm_model.cc:50 | The value of a source given by the name of a parameter (V1 1 0 vdd) is first taken for a model, whose ac_too is true, so it also drives an ac analysis; the same value written as a number or in quotes is zero there. |
| `C77_warning_refuted` | lib/bm_cond.cc:120-122, 149-157 | The warning is given before a plain value of a source is filed under dc, so V1 1 0 sin(...) 5 warns although both are kept and used. |
| `C77_print_refuted` | lib/bm_cond.cc:149-157, 264-287 | A source read from 5 7 is printed as the unlabelled 7 followed by dc 5; read again, 7 is filed under dc and then replaced by 5, so the transient value is lost. |
| `C78_itl_refuted` | lib/u_opt2.cc:270-272, 177-184 | print writes the iteration limits as itl@1=100; set_values knows only itl1. Printed options fed back leave the limits as they are, with a warning, although the comment says the text is suitable for passing to set. |
| `C78_wrong_choice_refuted` | lib/u_opt2.cc:116-134 | After phase, order, mode, method or units a wrong word is warned about and then, because the warning counts as no match, tried as one of the options that follow in the list: phase=nobypass turns bypass off. |
| `C78_method_refuted` | lib/u_opt2.cc:44, 49 | trape is a spelling both of trap{ezoidal} and of t{rap}e{uler}; the first wins, so method=trape is plain trapezoidal. |
| `C78_no_refuted` | lib/ap_get.cc:39 | The no form of a flag is matched without asking for the end of the word: nobypasstol turns bypass off, nomode turns mod off. |
| `C78_undefined_refuted` | lib/ap_get.cc:51, lib/ap_error.cc:41 | A number outside int given to a whole-number option is converted with undefined behaviour; an options line that is just // leaves the end of the text. |
| `C79_ends_refuted` | apps/c_delete.cc:114-120 | delete r1=5, or any of = ( ) ; } after a name: the name read is empty and the cursor does not move, so the loop never ends; every round also deletes the next card without a name. |
| `C79_model_refuted` | apps/c_delete.cc:65-70, 40 | delete nch.m1 where nch is a .model: the card is no device and has no list inside, so assert(Scope) fails, or a null pointer is used if assertions are off. |
| `C79_dotted_label_refuted` | apps/c_delete.cc:42-64 | A card whose own name has a dot is never found under that name: the name is always split. |
| `C80_gap_refuted` | lib/e_compon.cc:894-900 | The bins stop at the first missing number: a model called nch.2 is never found if there is no nch.1. |
| `C80_message_refuted` | lib/e_compon.cc:890, 912-916 | bin_count is set to zero again for each list, so bins inside a subcircuit none of which fits are reported as not found unless the root has bins too. |
| `C80_hidden_refuted` | lib/e_compon.cc:887, 923-925 | A part with the name of the model, in the list of the device, is taken for the model and refused, though the model is in an outer list. |
| `C81_empty_last_refuted` | lib/io_findf.cc:46-47 | An empty directory in a path means the current directory, but not as the last one: a colon at the end is ignored. |
| `C81_at_end_refuted` | lib/io_findf.cc:50 | The end of the path is dereferenced before it is compared with the end, in every search that finds nothing when the last directory is not empty. |
| `C81_unnamed_refuted` | lib/c_file.cc:59, 72, 81; lib/ap_construct.cc:62 | The warning for a file to include that is found nowhere does not name it: the name that is opened and reported is the empty text. |
| `C82_long_refuted` | lib/io_xopen.cc:61, 83 | A file name of 4096 characters or more ends the copying loop by its bound, and the zero at its end is written after the end of the buffer. |
| `C82_left_out_refuted` | lib/io_xopen.cc:79-84 | A default extension that does not fit is left out without a message, and a file of another name is opened. |
| `C83_silent_refuted` | apps/c_list.cc:104-105 | After a name that fits nothing the names that follow are not looked for, and no message is given; only the first name is checked. |
| `C83_same_refuted` | apps/c_list.cc:84-87 | The end of a range is looked for only after its start, so a range up to the first card, or from a card to itself, is refused as not found. |

Observed while reading, not proved:

* a logarithmic DC sweep with `loop` fails an assert in debug builds (`apps/s_dc.cc:598`);
* the assert in `EVAL_BM_PWL::tr_review` reads before the table (`apps/bm_pwl.cc`);
* a tab character is printed but not counted in the output column;
* continuing a transient with another `dtmin` leaves the start time off the grid;
* `trstephold` or `trstepgrow` below 1/2 can give a zero step;
* `fft` with n = 2^30 overflows `int`;
* probing a coil's internal node by name reads the wrong row;
* unloading a device while damping is active at iteration 2 or later would not unload it fully;
* the verilog `log` of a computed real is the natural logarithm (`apps/func_core.cc`);
* a top level `.param` is not visible inside subcircuits;
* a fixed parameter passes through text of 15 digits when given to a subcircuit;
* when `fit` or `table` refuses its points at a later expansion, the deleted spline is still pointed to and deleted again (`apps/bm_fit.cc:157-160`), and the constructor that throws leaks its arrays.
* `R` and `G` of a transmission line are read and never used (`apps/d_trln.cc:36-38`); without any length the delay stays NOT_INPUT after a mere message (`apps/d_trln.cc:340-343`); `tran cont` doubles the last key of its tables.
* `apps/d_mos1.model:129`: the slope of the square root for a forward biased bulk is marked "is wrong!!" in the code, and is (the product should be a quotient); it is used only in the iteration in which the device changes orientation with the option bit 040 set.
* `apps/d_mos_base.model:151-158`: when L or W is not given, the default is taken as the electrical size: XL, LD, DEL, XW and WD have no effect.
* decibels of a phase or of a real or imaginary part (`vpdb`, `vrdb`) are accepted; when the part is negative the number printed is that of 1e-50 whatever its size (`lib/u_xprobe.cc:52`). The second attempt of `lib/e_base.cc:135-142` can never succeed for elements and nodes (it follows from `C76_element`), and if it did it would apply the modifier again.

## 6. Assumptions per theorem

From `Print Assumptions`.  "none" is "Closed under the global context".

| property | theorem | file | assumptions |
|---|---|---|---|
| C01 | `C01_storage_layout` | `P_Matrix.v` | none |
| C01 | `C01_storage_is_a_matrix` | `P_Matrix.v` | none |
| C02 | `C02_stamping_is_dense_sum` | `P_Matrix.v` | none |
| C03 | `C03_lu_product` | `P_Matrix.v` | none |
| C04 | `C04_substitution_solves` | `P_Matrix.v` | none |
| C04 | `C04_solution_unique` | `P_Unique.v` | none |
| C05 | `C05_transposed_substitution_solves` | `P_Matrix.v` | none |
| C05 | `C05_transposed_solution_unique` | `P_Unique.v` | none |
| C05 | `C05_no_nodes_refuted` | `P_Matrix.v` | none |
| C06 | `C06_partial_equals_full` | `P_Matrix.v` | none |
| C06 | `C06_unmarked_clear_refuted` | `P_Matrix.v` | none |
| C07 | `C07_inplace_equals_copy` | `P_Matrix.v` | none |
| C07 | `C07_wider_accumulator_refuted` | `P_Matrix.v` | none |
| C08 | `C08_incremental_equals_full` | `P_Solver.v` | none |
| C08 | `C08_loads_latest_values` | `P_Solver.v` | none |
| C08 | `C08_noise_suppression_refuted` | `P_Solver.v` | none |
| C09 | `C09_factors_current` | `P_Solver.v` | none |
| C09 | `C09_voltages_solve` | `P_Solver.v` | none |
| C10 | `C10_permutation` | `P_Expand.v` | none |
| C11 | `C11_flattening` | `P_Expand.v` | none |
| C11 | `C11_no_exception` | `P_Expand.v` | none |
| C11 | `C11_same_row_same_net` | `P_Expand.v` | none |
| C12 | `C12_new_node` | `P_Nodemap.v` | none |
| C12 | `C12_same_name_same_node` | `P_Nodemap.v` | none |
| C12 | `C12_lookup` | `P_Nodemap.v` | none |
| C12 | `C12_case_option_change_refuted` | `P_Nodemap.v` | none |
| C13 | `C13_wildcard_sound` | `P_Wmatch.v` | none |
| C13 | `C13_wildcard_exact` | `P_Wmatch.v` | none |
| C13 | `C13_final_star_one_or_more` | `P_Wmatch.v` | none |
| C13 | `C13_final_star_zero_refuted` | `P_Wmatch.v` | none |
| C13 | `C13_literal_star_refuted` | `P_Wmatch.v` | none |
| C14 | `C14_cursor_stays_on_line` | `P_Scanner.v` | none |
| C14 | `C14_never_backwards` | `P_Scanner.v` | none |
| C14 | `C14_failed_match_consumes_nothing` | `P_Scanner.v` | none |
| C14 | `C14_failed_conversion_skips_blanks` | `P_Scanner.v` | none |
| C14 | `C14_check_leaves_the_line_refuted` | `P_Scanner.v` | none |
| C14 | `C14_ctof_failure_eats_comma_refuted` | `P_Scanner.v` | none |
| C14 | `C14_skipto_failure_reported_as_success_refuted` | `P_Scanner.v` | none |
| C15 | `C15_keyword_accepts` | `P_Keyword.v` | none |
| C15 | `C15_keyword_consumes` | `P_Keyword.v` | none |
| C15 | `C15_alternatives_accept` | `P_Keyword.v` | none |
| C15 | `C15_later_alternative_after_blank_refuted` | `P_Keyword.v` | none |
| C15 | `C15_unclosed_brace_refuted` | `P_Keyword.v` | none |
| C16 | `C16_ctoi_value` | `P_Number.v` | none |
| C16 | `C16_ctoi_reads_printed` | `P_Number.v` | none |
| C16 | `C16_ctou_value` | `P_Number.v` | none |
| C16 | `C16_ctox_value` | `P_Number.v` | none |
| C16 | `C16_ctoo_value` | `P_Number.v` | none |
| C16 | `C16_ctob_word` | `P_Number.v` | none |
| C16 | `C16_ctob_other` | `P_Number.v` | none |
| C16 | `C16_ctob_second_comma_refuted` | `P_Number.v` | none |
| C16 | `C16_smallest_int_refuted` | `P_Number.v` | none |
| C16 | `C16_sign_alone_accepted_refuted` | `P_Number.v` | none |
| C17 | `C17_ctof_value` | `P_Number.v` | none |
| C17 | `C17_sign_alone_accepted_refuted` | `P_Number.v` | none |
| C17 | `C17_huge_exponent_refuted` | `P_Number.v` | none |
| C18 | `C18_trim` | `P_Lines.v` | none |
| C18 | `C18_trim_unique_idempotent` | `P_Lines.v` | none |
| C19 | `C19_meaning_is_unique` | `P_Expr.v` | none |
| C19 | `C19_reduction_preserves_value` | `P_Expr.v` | none |
| C19 | `C19_closed_is_constant` | `P_Expr.v` | none |
| C19 | `C19_constants_evaluate` | `P_Expr.v` | none |
| C19 | `C19_functions_by_text` | `P_Expr.v` | none |
| C19 | `C19_sqrt_function` | `P_Expr.v` | none |
| C19 | `C19_unary_refuted` | `P_Expr.v` | none |
| C19 | `C19_integer_definition_refuted` | `P_Expr.v` | none |
| C19 | `C19_overflow_refuted` | `P_Expr.v` | none |
| C19 | `C19_ieee_refuted` | `P_Expr.v` | none |
| C19 | `C19_abs_of_string_refuted` | `P_Expr.v` | none |
| C20 | `C20_typed_arithmetic` | `P_Value.v` | none |
| C20 | `C20_ieee_arithmetic` | `P_Value.v` | none |
| C20 | `C20_no_value_when_undefined` | `P_Value.v` | none |
| C20 | `C20_strings` | `P_Value.v` | none |
| C20 | `C20_no_mixing` | `P_Value.v` | none |
| C20 | `C20_unary` | `P_Value.v` | none |
| C20 | `C20_ordinary_values_stay_ordinary` | `P_Value.v` | none |
| C20 | `C20_modulo_refuted` | `P_Value.v` | none |
| C20 | `C20_verilog_minus_refuted` | `P_Value.v` | none |
| C20 | `C20_verilog_compare_refuted` | `P_Value.v` | none |
| C21 | `C21_innermost` | `P_Scope.v` | none |
| C21 | `C21_declared_class` | `P_Scope.v` | none |
| C21 | `C21_instance_scope` | `P_Scope.v` | none |
| C21 | `C21_cycle_has_no_value` | `P_Scope.v` | none |
| C21 | `C21_cycle_reported` | `P_Scope.v` | none |
| C21 | `C21_limit_irrelevant` | `P_Scope.v` | none |
| C21 | `C21_counter_restored` | `P_Scope.v` | none |
| C21 | `C21_counter_refuted` | `P_Scope.v` | none |
| C21 | `C21_string_argument_refuted` | `P_Scope.v` | none |
| C22 | `C22_lookup_latest` | `P_Dispatcher.v` | none |
| C22 | `C22_install_keeps_objects` | `P_Dispatcher.v` | none |
| C22 | `C22_uninstall_removes` | `P_Dispatcher.v` | none |
| C22 | `C22_uninstall_restores_refuted` | `P_Dispatcher.v` | none |
| C22 | `C22_empty_name_ignored_refuted` | `P_Dispatcher.v` | none |
| C23 | `C23_step` | `P_Transient.v` | none |
| C23 | `C23_stuck_stops` | `P_Transient.v` | none |
| C23 | `C23_runs` | `P_Transient.v` | none |
| C23 | `C23_times_ordered` | `P_Transient.v` | none |
| C23 | `C23_accepted_increase` | `P_Transient.v` | none |
| C23 | `C23_rejections_bounded` | `P_Transient.v` | none |
| C23 | `C23_events_hit` | `P_Transient.v` | none |
| C23 | `C23_outputs_hit` | `P_Transient.v` | none |
| C23 | `C23_release_loops_refuted` | `P_Transient.v` | none |
| C23 | `C23_dtmax_below_dtmin_refuted` | `P_Transient.v` | none |
| C24 | `C24_none_lost` | `P_Transient.v` | none |
| C24 | `C24_earliest_first` | `P_Transient.v` | none |
| C24 | `C24_drained_in_order` | `P_Transient.v` | none |
| C24 | `C24_not_early` | `P_Transient.v` | none |
| C25 | `C25_smallest_limits` | `P_Transient.v` | none |
| C25 | `C25_never_when_none` | `P_Transient.v` | none |
| C26 | `C26_forward` | `P_Sweep.v` | none |
| C26 | `C26_loop` | `P_Sweep.v` | none |
| C26 | `C26_reaches_stop` | `P_Sweep.v` | none |
| C26 | `C26_exact` | `P_Sweep.v` | none |
| C26 | `C26_log` | `P_Sweep.v` | none |
| C26 | `C26_nested` | `P_Sweep.v` | none |
| C26 | `C26_inner_fastest` | `P_Sweep.v` | none |
| C26 | `C26_no_step` | `P_Sweep.v` | none |
| C26 | `C26_lin_points_refuted` | `P_Sweep.v` | none |
| C27 | `C27_linear` | `P_Sweep.v` | none |
| C27 | `C27_one_point` | `P_Sweep.v` | none |
| C27 | `C27_before_stop` | `P_Sweep.v` | none |
| C27 | `C27_overshoot_refuted` | `P_Sweep.v` | none |
| C27 | `C27_lin_points` | `P_Sweep.v` | none |
| C27 | `C27_log` | `P_Sweep.v` | none |
| C28 | `C28_inside` | `P_Interp.v` | none |
| C28 | `C28_before` | `P_Interp.v` | none |
| C28 | `C28_after` | `P_Interp.v` | none |
| C28 | `C28_single` | `P_Interp.v` | none |
| C28 | `C28_segment` | `P_Interp.v` | none |
| C28 | `C28_at_points` | `P_Interp.v` | none |
| C28 | `C28_safe` | `P_Interp.v` | none |
| C28 | `C28_final_step_refuted` | `P_Interp.v` | none |
| C29 | `C29_unchanged` | `P_Interp.v` | none |
| C29 | `C29_next_corner` | `P_Interp.v` | none |
| C29 | `C29_single_point_refuted` | `P_Interp.v` | none |
| C30 | `C30_delayed` | `P_Interp.v` | none |
| C30 | `C30_ends_held` | `P_Interp.v` | none |
| C30 | `C30_reflection` | `P_Interp.v` | none |
| C31 | `C31_derivatives_exact` | `P_Poly.v` | none |
| C31 | `C31_uses_first_points` | `P_Poly.v` | none |
| C32 | `C32_round_trip` | `P_Poly.v` | none |
| C32 | `C32_scale_add` | `P_Poly.v` | none |
| C33 | `C33_linear` | `P_Storage.v` | none |
| C33 | `C33_trapezoidal` | `P_Storage.v` | none |
| C33 | `C33_gear` | `P_Storage.v` | none |
| C33 | `C33_conductance` | `P_Storage.v` | none |
| C33 | `C33_static` | `P_Storage.v` | none |
| C33 | `C33_gear_unequal_refuted` | `P_Storage.v` | none |
| C34 | `C34_derivative` | `P_Storage.v` | none |
| C34 | `C34_error_is_tolerance` | `P_Storage.v` | none |
| C34 | `C34_no_limit` | `P_Storage.v` | none |
| C34 | `C34_proposal` | `P_Storage.v` | none |
| C34 | `C34_euler` | `P_Storage.v` | none |
| C35 | `C35_history` | `P_Storage.v` | none |
| C35 | `C35_attempt` | `P_Storage.v` | none |
| C36 | `C36_value` | `P_Pulse.v` | none |
| C36 | `C36_repeats` | `P_Pulse.v` | none |
| C36 | `C36_announced` | `P_Pulse.v` | none |
| C36 | `C36_long_pulse_refuted` | `P_Pulse.v` | none |
| C37 | `C37_value_and_slope` | `P_Poly.v` | none |
| C37 | `C37_limits` | `P_Poly.v` | none |
| C37 | `C37_no_coefficients_refuted` | `P_Poly.v` | none |
| C38 | `C38_transient` | `P_Switch.v` | none |
| C38 | `C38_changes_at_thresholds` | `P_Switch.v` | none |
| C38 | `C38_monotone` | `P_Switch.v` | none |
| C38 | `C38_operating_point` | `P_Switch.v` | none |
| C38 | `C38_predicted` | `P_Switch.v` | none |
| C38 | `C38_threshold_differs_refuted` | `P_Switch.v` | none |
| C39 | `C39_gates` | `P_Logic.v` | none |
| C39 | `C39_boolean` | `P_Logic.v` | none |
| C39 | `C39_order` | `P_Logic.v` | none |
| C39 | `C39_controlling` | `P_Logic.v` | none |
| C39 | `C39_inversion` | `P_Logic.v` | none |
| C39 | `C39_output` | `P_Logic.v` | none |
| C39 | `C39_moving` | `P_Logic.v` | none |
| C40 | `C40_max` | `P_Measure.v` | none |
| C40 | `C40_min` | `P_Measure.v` | none |
| C41 | `C41_cross` | `P_Measure.v` | none |
| C42 | `C42_integral` | `P_Measure.v` | none |
| C42 | `C42_line` | `P_Measure.v` | none |
| C42 | `C42_additive` | `P_Measure.v` | none |
| C42 | `C42_linear` | `P_Measure.v` | none |
| C42 | `C42_average` | `P_Measure.v` | none |
| C42 | `C42_rms` | `P_Measure.v` | none |
| C42 | `C42_short_window_refuted` | `P_Measure.v` | none |
| C43 | `C43_fft_any_field` | `P_Fft.v` | none |
| C43 | `C43_fft_is_dft` | `P_Fft.v` | `ClassicalDedekindReals.sig_not_dec`, `ClassicalDedekindReals.sig_forall_dec`, `FunctionalExtensionality.functional_extensionality_dep` |
| C43 | `C43_inverse` | `P_Fft.v` | `ClassicalDedekindReals.sig_not_dec`, `ClassicalDedekindReals.sig_forall_dec`, `FunctionalExtensionality.functional_extensionality_dep` |
| C44 | `C44_power` | `P_Measure.v` | none |
| C44 | `C44_exact_power_refuted` | `P_Measure.v` | none |
| C45 | `C45_counts_and_no_dangling` | `P_Common.v` | none |
| C45 | `C45_freed_with_last_holder` | `P_Common.v` | none |
| C45 | `C45_attach_effect` | `P_Common.v` | none |
| C45 | `C45_set_param_is_private` | `P_Common.v` | none |
| C45 | `C45_coarse_comparison_refuted` | `P_Common.v` | none |
| C46 | `C46_streams_are_sets` | `P_Output.v` | none |
| C46 | `C46_thirty_one_files_refuted` | `P_Output.v` | none |
| C46 | `C46_pack_mixes_files_refuted` | `P_Output.v` | none |
| C46 | `C46_carriage_return_refuted` | `P_Output.v` | none |
| C47 | `C47_listed_names_set` | `P_Params.v` | none |
| C47 | `C47_index_sets` | `P_Params.v` | none |
| C47 | `C47_first_system_names_set` | `P_Params.v` | none |
| C47 | `C47_system_names_refuted` | `P_Params.v` | none |
| C47 | `C47_index_too_big_refuted` | `P_Params.v` | none |
| C48 | `C48_read_file` | `P_Lines.v` | none |
| C48 | `C48_long_line_refuted` | `P_Lines.v` | none |
| C49 | `C49_text_kept` | `P_Output.v` | none |
| C49 | `C49_lines_fit` | `P_Output.v` | none |
| C49 | `C49_tab_column` | `P_Output.v` | none |
| C50 | `C26_reverse_partial` | `P_Sweep.v` | none |
| C50 | `C26_reverse_refuted` | `P_Sweep.v` | none |
| C50 | `C26_reverse_loop_refuted` | `P_Sweep.v` | none |
| C51 | `C29_changed_refuted` | `P_Interp.v` | none |
| C52 | `C32_product_partial` | `P_Poly.v` | none |
| C52 | `C32_product_refuted` | `P_Poly.v` | none |
| C53 | `C53_method_choice` | `P_Storage.v` | none |
| C54 | `C54_event` | `P_Logic.v` | none |
| C54 | `C54_not_early` | `P_Logic.v` | none |
| C54 | `C54_undo` | `P_Logic.v` | none |
| C54 | `C54_late_undo_refuted` | `P_Logic.v` | none |
| C54 | `C54_ramp` | `P_Logic.v` | none |
| C55 | `C55_value` | `P_Logic.v` | none |
| C55 | `C55_quality` | `P_Logic.v` | none |
| C55 | `C55_round_trip` | `P_Logic.v` | none |
| C55 | `C55_offset_levels_refuted` | `P_Logic.v` | none |
| C56 | `C56_slewrate` | `P_Measure.v` | none |
| C56 | `C56_last_refuted` | `P_Measure.v` | none |
| C57 | `C57_header` | `P_Expand.v` | none |
| C57 | `C57_trailing_ground_refuted` | `P_Expand.v` | none |
| C58 | `C58_gmin_is_current` | `P_Solver.v` | none |
| C58 | `C58_last_homotopy_solve_refuted` | `P_Solver.v` | none |
| C59 | `C59_solve_ends` | `P_Solver.v` | none |
| C59 | `C59_convergence` | `P_Converge.v` | none |
| C60 | `C60_round_trip` | `P_Ftos.v` | none |
| C60 | `C60_exact` | `P_Ftos.v` | none |
| C60 | `C60_zero` | `P_Ftos.v` | none |
| C60 | `C60_fixed_width` | `P_Ftos.v` | none |
| C60 | `C60_longest_refuted` | `P_Ftos.v` | none |
| C60 | `C60_near_limit_refuted` | `P_Ftos.v` | none |
| C61 | `C61_parse` | `P_Parse.v` | none |
| C61 | `C61_total` | `P_Parse.v` | none |
| C61 | `C61_unambiguous` | `P_Parse.v` | none |
| C61 | `C61_printing_succeeds` | `P_Parse.v` | none |
| C61 | `C61_print_read` | `P_Parse.v` | none |
| C61 | `C61_text_has_its_value` | `P_Parse.v` | none |
| C61 | `C61_conditional_operand_refuted` | `P_Parse.v` | none |
| C61 | `C61_angle_argument_refuted` | `P_Parse.v` | none |
| C61 | `C61_leading_blank_refuted` | `P_Parse.v` | none |
| C61 | `C61_stray_operator_refuted` | `P_Parse.v` | none |
| C62 | `C62_read` | `P_Quote.v` | none |
| C62 | `C62_write` | `P_Quote.v` | none |
| C62 | `C62_backslash_refuted` | `P_Quote.v` | none |
| C63 | `C63_read` | `P_Verilog.v` | none |
| C63 | `C63_unambiguous` | `P_Verilog.v` | none |
| C63 | `C63_print_read` | `P_Verilog.v` | none |
| C63 | `C63_paramset_read` | `P_Verilog.v` | none |
| C63 | `C63_digit_name_refuted` | `P_Verilog.v` | none |
| C63 | `C63_stop_in_name_refuted` | `P_Verilog.v` | none |
| C63 | `C63_paren_in_text_refuted` | `P_Verilog.v` | none |
| C63 | `C63_order_expression_refuted` | `P_Verilog.v` | none |
| C63 | `C63_escaped_at_end_refuted` | `P_Verilog.v` | none |
| C63 | `C63_paramset_value_refuted` | `P_Verilog.v` | none |
| C64 | `C64_refused` | `P_Spline.v` | none |
| C64 | `C64_accepted` | `P_Spline.v` | none |
| C64 | `C64_total` | `P_Spline.v` | none |
| C64 | `C64_points` | `P_Spline.v` | none |
| C64 | `C64_slope` | `P_Spline.v` | none |
| C64 | `C64_staircase` | `P_Spline.v` | none |
| C64 | `C64_straight` | `P_Spline.v` | none |
| C64 | `C64_degree` | `P_Spline.v` | none |
| C64 | `C64_cubic` | `P_Spline.v` | none |
| C64 | `C64_cubic_ends` | `P_Spline.v` | none |
| C64 | `C64_quadratic_ends` | `P_Spline.v` | none |
| C64 | `C64_above` | `P_Spline.v` | none |
| C64 | `C64_below` | `P_Spline.v` | none |
| C64 | `C64_one_point_refuted` | `P_Spline.v` | none |
| C64 | `C64_two_points_refuted` | `P_Spline.v` | none |
| C64 | `C64_two_points_slope_refuted` | `P_Spline.v` | none |
| C64 | `C64_small_slope_refuted` | `P_Spline.v` | none |
| C64 | `C64_rounding_refuted` | `P_Spline.v` | none |
| C64 | `C64_both_slopes_refuted` | `P_Spline.v` | none |
| C65 | `C65_read` | `P_Spice.v` | none |
| C65 | `C65_unambiguous` | `P_Spice.v` | none |
| C65 | `C65_print_read` | `P_Spice.v` | none |
| C65 | `C65_model_read` | `P_Spice.v` | none |
| C65 | `C65_model_print_read` | `P_Spice.v` | none |
| C65 | `C65_element_nodes` | `P_Spice.v` | none |
| C65 | `C65_element_nodes_paren` | `P_Spice.v` | none |
| C65 | `C65_element_keyword` | `P_Spice.v` | none |
| C65 | `C65_total` | `P_Spice.v` | none |
| C65 | `C65_semicolon_hangs_refuted` | `P_Spice.v` | none |
| C65 | `C65_bare_params_refuted` | `P_Spice.v` | none |
| C65 | `C65_bare_value_refuted` | `P_Spice.v` | none |
| C65 | `C65_too_many_nodes_refuted` | `P_Spice.v` | none |
| C65 | `C65_model_value_refuted` | `P_Spice.v` | none |
| C65 | `C65_print_value_refuted` | `P_Spice.v` | none |
| C65 | `C65_trailing_text_refuted` | `P_Spice.v` | none |
| C65 | `C65_node_named_poly_refuted` | `P_Spice.v` | none |
| C66 | `C66_accepted` | `P_Setup.v` | none |
| C66 | `C66_total` | `P_Setup.v` | none |
| C66 | `C66_forms` | `P_Setup.v` | none |
| C66 | `C66_continue` | `P_Setup.v` | none |
| C66 | `C66_steps` | `P_Setup.v` | none |
| C66 | `C66_run_ready` | `P_Setup.v` | none |
| C66 | `C66_last_option` | `P_Setup.v` | none |
| C66 | `C66_fourier` | `P_Setup.v` | none |
| C66 | `C66_fourier_forms` | `P_Setup.v` | none |
| C66 | `C66_continue_refuted` | `P_Setup.v` | none |
| C66 | `C66_spice_order_refuted` | `P_Setup.v` | none |
| C66 | `C66_limits_refuted` | `P_Setup.v` | none |
| C66 | `C66_total_refuted` | `P_Setup.v` | none |
| C66 | `C66_fourier_negative_refuted` | `P_Setup.v` | none |
| C67 | `C67_solved_circuit` | `P_Elements.v` | none |
| C67 | `C67_exact_at_convergence` | `P_Elements.v` | none |
| C67 | `C67_mutual_records_agree` | `P_Elements.v` | none |
| C67 | `C67_sweep_uses_the_value` | `P_Elements.v` | none |
| C67 | `C67_ccvs_sweep_refuted` | `P_Elements.v` | none |
| C67 | `C67_cccs_inode_sweep_refuted` | `P_Elements.v` | none |
| C67 | `C67_ccvs_inode_refuted` | `P_Elements.v` | none |
| C67 | `C67_vccap_probe_refuted` | `P_Elements.v` | none |
| C68 | `C68_ac_sweep` | `P_AC.v` | none |
| C68 | `C68_declared_suffices` | `P_AC.v` | none |
| C68 | `C68_small_signal_is_derivative` | `P_AC.v` | none |
| C68 | `C68_probe_changes_result_refuted` | `P_AC.v` | none |
| C68 | `C68_sensing_probe_refuted` | `P_AC.v` | none |
| C68 | `C68_transcap_probe_refuted` | `P_AC.v` | none |
| C68 | `C68_ccvs_without_op_refuted` | `P_AC.v` | none |
| C68 | `C68_small_resistor_refuted` | `P_AC.v` | none |
| C69 | `C69_no_dangling_probe` | `P_Probes.v` | none |
| C69 | `C69_steps_end` | `P_Probes.v` | none |
| C69 | `C69_delete` | `P_Probes.v` | none |
| C69 | `C69_other_kinds` | `P_Probes.v` | none |
| C69 | `C69_command` | `P_Probes.v` | none |
| C69 | `C69_names` | `P_Probes.v` | none |
| C69 | `C69_wave` | `P_Probes.v` | none |
| C69 | `C69_command_ends_refuted` | `P_Probes.v` | none |
| C69 | `C69_command_in_text_refuted` | `P_Probes.v` | none |
| C69 | `C69_each_object_once_refuted` | `P_Probes.v` | none |
| C69 | `C69_name_from_zero_refuted` | `P_Probes.v` | none |
| C69 | `C69_remove_several_refuted` | `P_Probes.v` | none |
| C69 | `C69_remove_backward_refuted` | `P_Probes.v` | none |
| C69 | `C69_wave_after_delete_refuted` | `P_Probes.v` | none |
| C69 | `C69_wave_in_bounds_refuted` | `P_Probes.v` | none |
| C69 | `C69_wave_after_command_refuted` | `P_Probes.v` | none |
| C70 | `C70_forward` | `P_Diode.v` | `ClassicalDedekindReals.sig_not_dec`, `ClassicalDedekindReals.sig_forall_dec`, `FunctionalExtensionality.functional_extensionality_dep`, `Classical_Prop.classic` |
| C70 | `C70_reverse` | `P_Diode.v` | `ClassicalDedekindReals.sig_not_dec`, `ClassicalDedekindReals.sig_forall_dec`, `FunctionalExtensionality.functional_extensionality_dep`, `Classical_Prop.classic` |
| C70 | `C70_iteration` | `P_Diode.v` | `ClassicalDedekindReals.sig_not_dec`, `ClassicalDedekindReals.sig_forall_dec`, `FunctionalExtensionality.functional_extensionality_dep`, `Classical_Prop.classic` |
| C70 | `C70_style` | `P_Diode.v` | `ClassicalDedekindReals.sig_not_dec`, `ClassicalDedekindReals.sig_forall_dec`, `FunctionalExtensionality.functional_extensionality_dep`, `Classical_Prop.classic` |
| C70 | `C70_passive` | `P_Diode.v` | `ClassicalDedekindReals.sig_not_dec`, `ClassicalDedekindReals.sig_forall_dec`, `FunctionalExtensionality.functional_extensionality_dep`, `Classical_Prop.classic` |
| C70 | `C70_limit_settled` | `P_Diode.v` | `ClassicalDedekindReals.sig_not_dec`, `ClassicalDedekindReals.sig_forall_dec`, `FunctionalExtensionality.functional_extensionality_dep`, `Classical_Prop.classic` |
| C70 | `C70_saturation` | `P_Diode.v` | `ClassicalDedekindReals.sig_not_dec`, `ClassicalDedekindReals.sig_forall_dec`, `FunctionalExtensionality.functional_extensionality_dep`, `Classical_Prop.classic` |
| C70 | `C70_capacitance` | `P_Diode.v` | `ClassicalDedekindReals.sig_not_dec`, `ClassicalDedekindReals.sig_forall_dec`, `FunctionalExtensionality.functional_extensionality_dep`, `Classical_Prop.classic` |
| C70 | `C70_parallel_conductance_refuted` | `P_Diode.v` | `ClassicalDedekindReals.sig_not_dec`, `ClassicalDedekindReals.sig_forall_dec`, `FunctionalExtensionality.functional_extensionality_dep`, `Classical_Prop.classic` |
| C70 | `C70_limit_refuted` | `P_Diode.v` | `ClassicalDedekindReals.sig_not_dec`, `ClassicalDedekindReals.sig_forall_dec`, `FunctionalExtensionality.functional_extensionality_dep`, `Classical_Prop.classic` |
| C70 | `C70_breakdown_refuted` | `P_Diode.v` | `ClassicalDedekindReals.sig_not_dec`, `ClassicalDedekindReals.sig_forall_dec`, `FunctionalExtensionality.functional_extensionality_dep`, `Classical_Prop.classic` |
| C70 | `C70_defined_refuted` | `P_Diode.v` | `ClassicalDedekindReals.sig_not_dec`, `ClassicalDedekindReals.sig_forall_dec`, `FunctionalExtensionality.functional_extensionality_dep`, `Classical_Prop.classic` |
| C70 | `C70_charge_refuted` | `P_Diode.v` | `ClassicalDedekindReals.sig_not_dec`, `ClassicalDedekindReals.sig_forall_dec`, `FunctionalExtensionality.functional_extensionality_dep`, `Classical_Prop.classic` |
| C71 | `C71_ports` | `P_Trln.v` | none |
| C71 | `C71_line` | `P_Trln.v` | none |
| C71 | `C71_line_exact` | `P_Trln.v` | none |
| C71 | `C71_quiet` | `P_Trln.v` | none |
| C71 | `C71_ac` | `P_TrlnAc.v` | `ClassicalDedekindReals.sig_not_dec`, `ClassicalDedekindReals.sig_forall_dec`, `FunctionalExtensionality.functional_extensionality_dep` |
| C71 | `C71_parameters` | `P_TrlnAc.v` | `ClassicalDedekindReals.sig_not_dec`, `ClassicalDedekindReals.sig_forall_dec`, `FunctionalExtensionality.functional_extensionality_dep` |
| C71 | `C71_operating_point` | `P_Trln.v` | none |
| C71 | `C71_first_step_refuted` | `P_Trln.v` | none |
| C71 | `C71_dc_wire_refuted` | `P_Trln.v` | none |
| C72 | `C72_tanh` | `P_Bmfun.v` | `ClassicalDedekindReals.sig_not_dec`, `ClassicalDedekindReals.sig_forall_dec`, `FunctionalExtensionality.functional_extensionality_dep`, `Classical_Prop.classic` |
| C72 | `C72_posy` | `P_Bmfun.v` | `ClassicalDedekindReals.sig_not_dec`, `ClassicalDedekindReals.sig_forall_dec`, `FunctionalExtensionality.functional_extensionality_dep`, `Classical_Prop.classic` |
| C72 | `C72_line` | `P_Bmfun.v` | `ClassicalDedekindReals.sig_not_dec`, `ClassicalDedekindReals.sig_forall_dec`, `FunctionalExtensionality.functional_extensionality_dep`, `Classical_Prop.classic` |
| C72 | `C72_source` | `P_Bmfun.v` | `ClassicalDedekindReals.sig_not_dec`, `ClassicalDedekindReals.sig_forall_dec`, `FunctionalExtensionality.functional_extensionality_dep`, `Classical_Prop.classic` |
| C72 | `C72_exp` | `P_Bmfun.v` | `ClassicalDedekindReals.sig_not_dec`, `ClassicalDedekindReals.sig_forall_dec`, `FunctionalExtensionality.functional_extensionality_dep` |
| C72 | `C72_exp_events` | `P_Bmfun.v` | `ClassicalDedekindReals.sig_forall_dec`, `FunctionalExtensionality.functional_extensionality_dep` |
| C72 | `C72_sin` | `P_Bmfun.v` | `ClassicalDedekindReals.sig_not_dec`, `ClassicalDedekindReals.sig_forall_dec`, `FunctionalExtensionality.functional_extensionality_dep` |
| C72 | `C72_sin_events` | `P_Bmfun.v` | `ClassicalDedekindReals.sig_not_dec`, `ClassicalDedekindReals.sig_forall_dec`, `FunctionalExtensionality.functional_extensionality_dep` |
| C72 | `C72_sffm` | `P_Bmfun.v` | `ClassicalDedekindReals.sig_not_dec`, `ClassicalDedekindReals.sig_forall_dec`, `FunctionalExtensionality.functional_extensionality_dep` |
| C72 | `C72_ac` | `P_Bmfun.v` | `ClassicalDedekindReals.sig_not_dec`, `ClassicalDedekindReals.sig_forall_dec`, `FunctionalExtensionality.functional_extensionality_dep` |
| C72 | `C72_input_offset_refuted` | `P_Bmfun.v` | `ClassicalDedekindReals.sig_not_dec`, `ClassicalDedekindReals.sig_forall_dec`, `FunctionalExtensionality.functional_extensionality_dep`, `Classical_Prop.classic` |
| C72 | `C72_output_offset_refuted` | `P_Bmfun.v` | `ClassicalDedekindReals.sig_not_dec`, `ClassicalDedekindReals.sig_forall_dec`, `FunctionalExtensionality.functional_extensionality_dep`, `Classical_Prop.classic` |
| C72 | `C72_exp_endless_refuted` | `P_Bmfun.v` | `ClassicalDedekindReals.sig_not_dec`, `ClassicalDedekindReals.sig_forall_dec`, `FunctionalExtensionality.functional_extensionality_dep` |
| C72 | `C72_exp_order_refuted` | `P_Bmfun.v` | `ClassicalDedekindReals.sig_forall_dec`, `FunctionalExtensionality.functional_extensionality_dep` |
| C72 | `C72_sin_delay_refuted` | `P_Bmfun.v` | `ClassicalDedekindReals.sig_not_dec`, `ClassicalDedekindReals.sig_forall_dec`, `FunctionalExtensionality.functional_extensionality_dep` |
| C72 | `C72_sin_past_refuted` | `P_Bmfun.v` | `ClassicalDedekindReals.sig_forall_dec`, `FunctionalExtensionality.functional_extensionality_dep` |
| C72 | `C72_sin_near_refuted` | `P_Bmfun.v` | `ClassicalDedekindReals.sig_forall_dec`, `FunctionalExtensionality.functional_extensionality_dep` |
| C72 | `C72_ac_delay_refuted` | `P_Bmfun.v` | `ClassicalDedekindReals.sig_not_dec`, `ClassicalDedekindReals.sig_forall_dec`, `FunctionalExtensionality.functional_extensionality_dep` |
| C72 | `C72_posy_constant_refuted` | `P_Bmfun.v` | `ClassicalDedekindReals.sig_not_dec`, `ClassicalDedekindReals.sig_forall_dec`, `FunctionalExtensionality.functional_extensionality_dep`, `Classical_Prop.classic` |
| C72 | `C72_posy_slope_refuted` | `P_Bmfun.v` | `ClassicalDedekindReals.sig_not_dec`, `ClassicalDedekindReals.sig_forall_dec`, `FunctionalExtensionality.functional_extensionality_dep`, `Classical_Prop.classic` |
| C72 | `C72_posy_odd_even_refuted` | `P_Bmfun.v` | `ClassicalDedekindReals.sig_not_dec`, `ClassicalDedekindReals.sig_forall_dec`, `FunctionalExtensionality.functional_extensionality_dep`, `Classical_Prop.classic` |
| C73 | `C73_session` | `P_Fault.v` | none |
| C73 | `C73_unfault` | `P_Fault.v` | none |
| C73 | `C73_ends` | `P_Fault.v` | none |
| C73 | `C73_scope` | `P_Fault.v` | none |
| C73 | `C73_find` | `P_Fault.v` | none |
| C73 | `C73_sweep` | `P_Fault.v` | none |
| C73 | `C73_unknown_name_refuted` | `P_Fault.v` | none |
| C73 | `C73_no_value_refuted` | `P_Fault.v` | none |
| C73 | `C73_dotted_refuted` | `P_Fault.v` | none |
| C73 | `C73_deleted_refuted` | `P_Fault.v` | none |
| C73 | `C73_not_element_refuted` | `P_Fault.v` | none |
| C74 | `C74_current` | `P_Mos.v` | `ClassicalDedekindReals.sig_not_dec`, `ClassicalDedekindReals.sig_forall_dec`, `FunctionalExtensionality.functional_extensionality_dep` |
| C74 | `C74_regions` | `P_Mos.v` | `ClassicalDedekindReals.sig_not_dec`, `ClassicalDedekindReals.sig_forall_dec`, `FunctionalExtensionality.functional_extensionality_dep` |
| C74 | `C74_slopes` | `P_Mos.v` | `ClassicalDedekindReals.sig_not_dec`, `ClassicalDedekindReals.sig_forall_dec`, `FunctionalExtensionality.functional_extensionality_dep` |
| C74 | `C74_settles` | `P_Mos.v` | `ClassicalDedekindReals.sig_not_dec`, `ClassicalDedekindReals.sig_forall_dec`, `FunctionalExtensionality.functional_extensionality_dep` |
| C74 | `C74_reachable` | `P_Mos.v` | `ClassicalDedekindReals.sig_not_dec`, `ClassicalDedekindReals.sig_forall_dec`, `FunctionalExtensionality.functional_extensionality_dep` |
| C74 | `C74_passive` | `P_Mos.v` | `ClassicalDedekindReals.sig_not_dec`, `ClassicalDedekindReals.sig_forall_dec`, `FunctionalExtensionality.functional_extensionality_dep` |
| C74 | `C74_exchange` | `P_Mos.v` | `ClassicalDedekindReals.sig_not_dec`, `ClassicalDedekindReals.sig_forall_dec`, `FunctionalExtensionality.functional_extensionality_dep` |
| C74 | `C74_mirror` | `P_Mos.v` | `ClassicalDedekindReals.sig_not_dec`, `ClassicalDedekindReals.sig_forall_dec`, `FunctionalExtensionality.functional_extensionality_dep` |
| C74 | `C74_card` | `P_Mos.v` | `ClassicalDedekindReals.sig_not_dec`, `ClassicalDedekindReals.sig_forall_dec`, `FunctionalExtensionality.functional_extensionality_dep`, `Classical_Prop.classic` |
| C74 | `C74_capacitances` | `P_Mos.v` | `ClassicalDedekindReals.sig_not_dec`, `ClassicalDedekindReals.sig_forall_dec`, `FunctionalExtensionality.functional_extensionality_dep` |
| C74 | `C74_capacitance_values` | `P_Mos.v` | `ClassicalDedekindReals.sig_not_dec`, `ClassicalDedekindReals.sig_forall_dec`, `FunctionalExtensionality.functional_extensionality_dep` |
| C74 | `C74_tangent` | `P_Mos.v` | `ClassicalDedekindReals.sig_not_dec`, `ClassicalDedekindReals.sig_forall_dec`, `FunctionalExtensionality.functional_extensionality_dep` |
| C74 | `C74_parameters` | `P_Mos.v` | `ClassicalDedekindReals.sig_not_dec`, `ClassicalDedekindReals.sig_forall_dec`, `FunctionalExtensionality.functional_extensionality_dep`, `Classical_Prop.classic` |
| C74 | `C74_temperature` | `P_Mos.v` | `ClassicalDedekindReals.sig_not_dec`, `ClassicalDedekindReals.sig_forall_dec`, `FunctionalExtensionality.functional_extensionality_dep`, `Classical_Prop.classic` |
| C74 | `C74_forward_bulk_refuted` | `P_Mos.v` | `ClassicalDedekindReals.sig_not_dec`, `ClassicalDedekindReals.sig_forall_dec`, `FunctionalExtensionality.functional_extensionality_dep`, `Classical_Prop.classic` |
| C74 | `C74_cap_history_refuted` | `P_Mos.v` | `ClassicalDedekindReals.sig_not_dec`, `ClassicalDedekindReals.sig_forall_dec`, `FunctionalExtensionality.functional_extensionality_dep`, `Classical_Prop.classic` |
| C74 | `C74_cap_jump_refuted` | `P_Mos.v` | `ClassicalDedekindReals.sig_not_dec`, `ClassicalDedekindReals.sig_forall_dec`, `FunctionalExtensionality.functional_extensionality_dep`, `Classical_Prop.classic` |
| C74 | `C74_hot_refuted` | `P_Mos.v` | `ClassicalDedekindReals.sig_not_dec`, `ClassicalDedekindReals.sig_forall_dec`, `FunctionalExtensionality.functional_extensionality_dep`, `Classical_Prop.classic` |
| C75 | `C75_impedance` | `P_Port.v` | none |
| C75 | `C75_z_probe` | `P_Port.v` | none |
| C75 | `C75_z_probe_ac` | `P_Port.v` | none |
| C75 | `C75_power_balance` | `P_Port.v` | none |
| C75 | `C75_power_split` | `P_Port.v` | none |
| C75 | `C75_z_controlled_refuted` | `P_Port.v` | none |
| C76 | `C76_element` | `P_Xprobe.v` | `ClassicalDedekindReals.sig_not_dec`, `ClassicalDedekindReals.sig_forall_dec`, `FunctionalExtensionality.functional_extensionality_dep`, `Classical_Prop.classic` |
| C76 | `C76_node` | `P_Xprobe.v` | `ClassicalDedekindReals.sig_not_dec`, `ClassicalDedekindReals.sig_forall_dec`, `FunctionalExtensionality.functional_extensionality_dep`, `Classical_Prop.classic` |
| C76 | `C76_polar` | `P_Xprobe.v` | `ClassicalDedekindReals.sig_not_dec`, `ClassicalDedekindReals.sig_forall_dec`, `FunctionalExtensionality.functional_extensionality_dep`, `Classical_Prop.classic` |
| C76 | `C76_rounded` | `P_Xprobe.v` | `ClassicalDedekindReals.sig_forall_dec`, `FunctionalExtensionality.functional_extensionality_dep` |
| C76 | `C76_order` | `P_Xprobe.v` | `ClassicalDedekindReals.sig_forall_dec`, `FunctionalExtensionality.functional_extensionality_dep` |
| C76 | `C76_node_voltage` | `P_Xprobe.v` | `ClassicalDedekindReals.sig_forall_dec`, `FunctionalExtensionality.functional_extensionality_dep` |
| C76 | `C76_long_name_refuted` | `P_Xprobe.v` | `ClassicalDedekindReals.sig_not_dec`, `ClassicalDedekindReals.sig_forall_dec`, `FunctionalExtensionality.functional_extensionality_dep`, `Classical_Prop.classic` |
| C76 | `C76_order_refuted` | `P_Xprobe.v` | `ClassicalDedekindReals.sig_forall_dec`, `FunctionalExtensionality.functional_extensionality_dep` |
| C77 | `C77_choice` | `P_Cond.v` | none |
| C77 | `C77_one_choice` | `P_Cond.v` | none |
| C77 | `C77_silent` | `P_Cond.v` | none |
| C77 | `C77_order` | `P_Cond.v` | none |
| C77 | `C77_round_trip` | `P_Cond.v` | none |
| C77 | `C77_one_label` | `P_Cond.v` | none |
| C77 | `C77_one_reading` | `P_Cond.v` | none |
| C77 | `C77_text` | `P_Cond.v` | none |
| C77 | `C77_two_values_refuted` | `P_Cond.v` | none |
| C77 | `C77_name_refuted` | `P_Cond.v` | none |
| C77 | `C77_warning_refuted` | `P_Cond.v` | none |
| C77 | `C77_print_refuted` | `P_Cond.v` | none |
| C78 | `C78_number` | `P_Opts.v` | none |
| C78 | `C78_flag` | `P_Opts.v` | none |
| C78 | `C78_no` | `P_Opts.v` | none |
| C78 | `C78_level` | `P_Opts.v` | none |
| C78 | `C78_choice` | `P_Opts.v` | none |
| C78 | `C78_language` | `P_Opts.v` | none |
| C78 | `C78_unknown` | `P_Opts.v` | none |
| C78 | `C78_sequence` | `P_Opts.v` | none |
| C78 | `C78_last` | `P_Opts.v` | none |
| C78 | `C78_ends` | `P_Opts.v` | none |
| C78 | `C78_unchanged` | `P_Opts.v` | none |
| C78 | `C78_invariant` | `P_Opts.v` | none |
| C78 | `C78_printed_number` | `P_Opts.v` | none |
| C78 | `C78_printed_flag` | `P_Opts.v` | none |
| C78 | `C78_printed_choice` | `P_Opts.v` | none |
| C78 | `C78_whole` | `P_Opts.v` | none |
| C78 | `C78_itl_refuted` | `P_Opts.v` | none |
| C78 | `C78_wrong_choice_refuted` | `P_Opts.v` | none |
| C78 | `C78_method_refuted` | `P_Opts.v` | none |
| C78 | `C78_no_refuted` | `P_Opts.v` | none |
| C78 | `C78_undefined_refuted` | `P_Opts.v` | none |
| C79 | `C79_exact` | `P_Delete.v` | none |
| C79 | `C79_unknown` | `P_Delete.v` | none |
| C79 | `C79_pattern` | `P_Delete.v` | none |
| C79 | `C79_pattern_means` | `P_Delete.v` | none |
| C79 | `C79_inside` | `P_Delete.v` | none |
| C79 | `C79_inside_last` | `P_Delete.v` | none |
| C79 | `C79_outside` | `P_Delete.v` | none |
| C79 | `C79_instance` | `P_Delete.v` | none |
| C79 | `C79_only` | `P_Delete.v` | none |
| C79 | `C79_done` | `P_Delete.v` | none |
| C79 | `C79_list` | `P_Delete.v` | none |
| C79 | `C79_all` | `P_Delete.v` | none |
| C79 | `C79_ends` | `P_Delete.v` | none |
| C79 | `C79_ends_refuted` | `P_Delete.v` | none |
| C79 | `C79_model_refuted` | `P_Delete.v` | none |
| C79 | `C79_dotted_label_refuted` | `P_Delete.v` | none |
| C80 | `C80_one` | `P_Model.v` | none |
| C80 | `C80_found` | `P_Model.v` | none |
| C80 | `C80_mismatch` | `P_Model.v` | none |
| C80 | `C80_none` | `P_Model.v` | none |
| C80 | `C80_message` | `P_Model.v` | none |
| C80 | `C80_ends` | `P_Model.v` | none |
| C80 | `C80_nameless` | `P_Model.v` | none |
| C80 | `C80_gap_refuted` | `P_Model.v` | none |
| C80 | `C80_message_refuted` | `P_Model.v` | none |
| C80 | `C80_hidden_refuted` | `P_Model.v` | none |
| C81 | `C81_every_path` | `P_Findf.v` | none |
| C81 | `C81_ends` | `P_Findf.v` | none |
| C81 | `C81_found` | `P_Findf.v` | none |
| C81 | `C81_none` | `P_Findf.v` | none |
| C81 | `C81_colon_at_end` | `P_Findf.v` | none |
| C81 | `C81_no_path` | `P_Findf.v` | none |
| C81 | `C81_include` | `P_Findf.v` | none |
| C81 | `C81_load` | `P_Findf.v` | none |
| C81 | `C81_plugins` | `P_Findf.v` | none |
| C81 | `C81_empty_last_refuted` | `P_Findf.v` | none |
| C81 | `C81_at_end_refuted` | `P_Findf.v` | none |
| C81 | `C81_unnamed_refuted` | `P_Findf.v` | none |
| C82 | `C82_name` | `P_Xopen.v` | none |
| C82 | `C82_one` | `P_Xopen.v` | none |
| C82 | `C82_fits` | `P_Xopen.v` | none |
| C82 | `C82_kept` | `P_Xopen.v` | none |
| C82 | `C82_not_kept` | `P_Xopen.v` | none |
| C82 | `C82_no_name` | `P_Xopen.v` | none |
| C82 | `C82_long_refuted` | `P_Xopen.v` | none |
| C82 | `C82_left_out_refuted` | `P_Xopen.v` | none |
| C83 | `C83_all` | `P_List.v` | none |
| C83 | `C83_names` | `P_List.v` | none |
| C83 | `C83_unknown` | `P_List.v` | none |
| C83 | `C83_range` | `P_List.v` | none |
| C83 | `C83_range_unknown` | `P_List.v` | none |
| C83 | `C83_from` | `P_List.v` | none |
| C83 | `C83_upto` | `P_List.v` | none |
| C83 | `C83_safe` | `P_List.v` | none |
| C83 | `C83_silent_refuted` | `P_List.v` | none |
| C83 | `C83_same_refuted` | `P_List.v` | none |

## 7. Mutation tests

`seeded/LOG.jsonl` records, per wrong variant of the model: the definition edited, the edit, the
claim it breaks, the theorems that no longer compiled, and the theorems added or tightened when a variant got
through.  The variants were built in a scratch copy; a variant counts as noticed only if the proof of a
theorem whose English claim it breaks fails (the direct failures of lemmas and all theorems depending on them
are listed).
