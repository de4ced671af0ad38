{"id": "C01", "title": "External/internal renumbering round trip", "statement": "For a well-formed case dict, int2ext(ext2int(ppc)) returns exactly the original bus, gen, branch, gencost and areas tables: no row is lost, duplicated, reordered or altered, including rows of isolated buses and out-of-service equipment.", "quantifier": "every case dict with distinct non-negative integer bus numbers, any number of buses/generators/branches, any in-service/out-of-service pattern, any extra columns, any values in the non-topology columns", "why_tests_cant": "depends on arbitrary bus numberings, status patterns and generator orders; the test suite only runs two fixed 30/9-bus cases", "anchors": ["pypower/ext2int.py:ext2int", "pypower/int2ext.py:int2ext"]}
{"id": "C02", "title": "Internal form produced by ext2int", "statement": "After ext2int the buses are numbered 0..nb-1 in their original relative order, only in-service buses, generators and branches remain, generators are sorted by bus, every generator/branch/area refers to the internal number of the bus it referred to before, and all other columns are untouched.", "quantifier": "every well-formed case dict", "why_tests_cant": "universal over numbering and status patterns", "anchors": ["pypower/ext2int.py:ext2int"]}
{"id": "C03", "title": "int2ext writes results back to the right rows", "statement": "If a solver changes any result values in the internal tables (without changing the shape or bus columns), int2ext puts each changed row back at the external position it came from and leaves every out-of-service row exactly as it was in the original case.", "quantifier": "every well-formed case and every possible row-wise modification of the internal bus, gen and branch tables", "why_tests_cant": "the set of possible solver outputs is infinite; a swapped permutation is invisible on cases whose generators are already sorted", "anchors": ["pypower/int2ext.py:int2ext", "pypower/ext2int.py:ext2int"]}
{"id": "C04", "title": "Conversion state machine is idempotent", "statement": "Calling ext2int on a case already in internal form returns it unchanged, calling int2ext on a case already in external form is rejected or leaves it unchanged, and repeated ext2int/int2ext cycles do not accumulate changes.", "quantifier": "every sequence of ext2int / int2ext calls on a well-formed case", "why_tests_cant": "quantifies over call histories", "anchors": ["pypower/ext2int.py:ext2int", "pypower/int2ext.py:int2ext"]}
{"id": "C05", "title": "Reordering of user data along bus/gen/branch order", "statement": "For dense vectors and matrices, e2i_data selects, for each internal row, the entry of the corresponding external row, i2e_data writes it back, entries for out-of-service rows keep the old value, and i2e_data after e2i_data is the identity on the original data; for a concatenation of several orderings each block is handled separately.", "quantifier": "every well-formed case, every data vector/matrix and every list of orderings", "why_tests_cant": "universal over data, orderings and status patterns", "anchors": ["pypower/e2i_data.py:e2i_data", "pypower/i2e_data.py:i2e_data", "pypower/get_reorder.py:get_reorder", "pypower/set_reorder.py:set_reorder"]}
{"id": "C06", "title": "User callback registration and execution", "statement": "Callbacks registered for a stage run exactly once each, in registration order, each receiving the value returned by the previous one; removing a callback removes its most recent registration only, and add followed by remove restores the previous callback list.", "quantifier": "every sequence of add_userfcn/remove_userfcn calls, every stage and every set of callbacks", "why_tests_cant": "quantifies over registration histories", "anchors": ["pypower/add_userfcn.py:add_userfcn", "pypower/remove_userfcn.py:remove_userfcn", "pypower/run_userfcn.py:run_userfcn"]}
{"id": "C07", "title": "Version-1 case conversion preserves the input data", "statement": "Loading a version-1 case yields a version-2 case in which every input data column of gen (bus .. Pmin, and the Pmax/Pmin/Qmax multipliers if there are at least 13 columns) and of branch (from bus .. status) appears in the column where version 2 stores that quantity, the new generator columns are 0 and the new angle limits are -360/360. The decision is taken from the width of gen alone (fewer than 21 columns); a version-2 case is returned unchanged, and the version field of the input has no influence.", "quantifier": "every version-1 gen table of 10..19 columns and branch table of 11 or more columns, with any cell values; every dict with the required keys", "why_tests_cant": "the width combinations are not covered by the tests and it must hold for all values and sizes", "anchors": ["pypower/loadcase.py:loadcase", "pypower/loadcase.py:ppc_1to2"]}
{"id": "C08", "title": "OPF model: variable and constraint indexing", "statement": "After any sequence of add_vars/add_constraints calls with distinct names, the index ranges of the named sets are disjoint, contiguous, in order of addition and cover exactly 0..N-1; getv returns the concatenation of the per-set initial values and bounds; getN agrees with the ranges.", "quantifier": "every sequence of model-building calls", "why_tests_cant": "invariant over call histories", "anchors": ["pypower/opf_model.py:opf_model.add_vars", "pypower/opf_model.py:opf_model.add_constraints", "pypower/opf_model.py:opf_model.getv", "pypower/opf_model.py:opf_model.getN", "pypower/opf_model.py:opf_model.get_idx"]}
{"id": "C09", "title": "OPF model: assembled linear constraints mean what was added", "statement": "For every vector x of all variables, l <= A x <= u for the assembled matrix returned by linear_constraints holds iff, for every named constraint set, its own bounds hold for its own matrix applied to the concatenation of the variable sets it was declared over.", "quantifier": "every sequence of add_vars/add_constraints calls and every x", "why_tests_cant": "universal over models and points", "anchors": ["pypower/opf_model.py:opf_model.linear_constraints", "pypower/opf_model.py:opf_model.add_constraints"]}
{"id": "C10", "title": "OPF model: user cost assembly", "statement": "For cost sets given by N, Cw and H over declared variable sets, the cost evaluated from the assembled parameters equals the sum of the documented costs of the individually added sets, at every x, and asking for the total leaves the model unchanged.", "quantifier": "every sequence of add_vars/add_costs calls with distinct names, every x", "why_tests_cant": "universal over models, points and call histories", "anchors": ["pypower/opf_model.py:opf_model.add_costs", "pypower/opf_model.py:opf_model.build_cost_params", "pypower/opf_model.py:opf_model.compute_cost"]}
{"id": "C100", "title": "Prices of zonal reserves and of energy agree with costs", "statement": "On success of a DC optimal power flow with zonal reserves, for every unit in service and in a zone its cost of reserves equals its reported reserve price, less the price of its upper reserve limit, plus that of its lower limit, less that of the limit on output plus reserves; and for every generator in service whose cost is not split into segments the marginal cost at its reported output equals the price at its bus, less the price of its maximum, plus that of its minimum, less that of the limit on output plus reserves. Prices are read from the returned tables and reserve data in the numbers of the case; both hold up to the gradient tolerance of the solver and the clearing of small multipliers.", "quantifier": "every well-formed case and reserve data of matching sizes with zone entries 0 or 1, ordered limits and ramp limits and quantities not negative, every linear solver", "why_tests_cant": "Tests compare prices of one 30-bus case to six digits; that multipliers are taken from the right rows and columns, scaled and returned to the right units for any number of units, zones and segments needs all cases.", "anchors": ["pypower/toggle_reserves.py:userfcn_reserves_formulation", "pypower/toggle_reserves.py:userfcn_reserves_int2ext", "pypower/dcopf_solver.py:dcopf_solver"]}
{"id": "C101", "title": "The reserve price of a unit is the largest price of its zones", "statement": "The reserve price reported for a unit in a zone is the maximum of the prices of the zones it belongs to (as documented).", "quantifier": "every well-formed case and reserve data of matching sizes with ordered limits and ramp limits and quantities not negative, every linear solver", "why_tests_cant": "In the test case zones with a price overlap only where one of them has none, so a sum and a maximum agree.", "anchors": ["pypower/toggle_reserves.py:userfcn_reserves_int2ext", "pypower/runopf_w_res.py:runopf_w_res"]}
{"id": "C102", "title": "Prices in the tables of a DC optimal power flow run", "statement": "For a successful DC optimal power flow run on a case as given (any bus numbers, idle and isolated equipment, missing result columns), the returned tables price the dispatch: for each generator in service with a polynomial or single-segment cost, marginal cost at PG less LAM_P at its bus plus MU_PMAX less MU_PMIN is zero, and for each bus in service other than the reference (angle limits absent or ignored) the differences of LAM_P over the branches in service plus MU_SF less MU_ST, weighted by the change of each flow with the angle of the bus, add up to zero; both up to the gradient tolerance and the clearing of small multipliers.", "quantifier": "every well-formed case with ordered limits, every linear solver, every generator and bus in service", "why_tests_cant": "Tests read prices of cases numbered consecutively with all equipment in service; sorting, renumbering and writing back of multipliers must agree for every numbering and outage pattern.", "anchors": ["pypower/opf.py:opf", "pypower/dcopf_solver.py:dcopf_solver", "pypower/int2ext.py:int2ext", "pypower/ext2int.py:ext2int"]}
{"id": "C103", "title": "A DC optimal power flow run reports a near-optimal schedule", "statement": "For a successful DC optimal power flow run on a case as given, the reported cost is at most the cost of any schedule of the case (angles by bus number, outputs by generator row) that balances every bus in service and keeps output, flow and angle limits and reference angles, plus a gap made of the solver's tolerances: the gradient tolerance times the distance of that schedule from the reported tables, the feasibility tolerance times the multipliers, the complementarity tolerance and the residual of the inequality constraints.", "quantifier": "every well-formed case with ordered limits that coincide or are clearly apart and costs that are piecewise linear, linear or quadratic curved upwards, every linear solver, every competing schedule", "why_tests_cant": "Tests compare with one stored optimum; that no other feasible schedule of the case, for any numbering and outages, beats the report is a statement about all schedules.", "anchors": ["pypower/opf.py:opf", "pypower/dcopf_solver.py:dcopf_solver", "pypower/pips.py:pips", "pypower/ext2int.py:ext2int", "pypower/int2ext.py:int2ext"]}
{"id": "C104", "title": "Each calling form of the optimal power flow means what is documented", "statement": "For each of the documented calling forms of the optimal power flow (beginning with a case or with the data matrices), every role - data, options, callbacks, user constraints, costs and variables - gets the argument that stands at its documented place; what the call does not say comes from the field of the case, else a default. Calls with other numbers of arguments are refused.", "quantifier": "all documented forms, all arguments (any shape, present or absent), all cases, any loader of case files and any default options", "why_tests_cant": "Fourteen forms times present or absent arguments and fields give thousands of combinations; the code shifts its arguments by hand for each form.", "anchors": ["pypower/opf_args.py:opf_args", "pypower/opf_args.py:opf_args2"]}
{"id": "C105", "title": "User constraints and costs given in a call reach the problem", "statement": "The user constraints, costs, variables and callbacks of an accepted call are the ones found when the problem is set up from the case that the call hands on. False when the lower bounds are empty or the weights are empty: the constraints (or costs) are left out.", "quantifier": "all accepted calls, all arguments and cases", "why_tests_cant": "A dropped constraint gives a plausible optimum; only calls with empty bounds or weights show it.", "anchors": ["pypower/opf_args.py:opf_args", "pypower/opf_args.py:opf_args2", "pypower/opf_setup.py:opf_setup"]}
{"id": "C106", "title": "A call leaves the case of the caller as it was", "statement": "An optimal power flow call has no influence on later calls with the same case. False when the call brings constraints, costs or variables of its own: they are written into the dict of the caller and in force from then on.", "quantifier": "all cases, all calls", "why_tests_cant": "Tests load the case anew before each run, so what a call leaves behind goes unseen.", "anchors": ["pypower/opf_args.py:opf_args", "pypower/opf_args.py:opf_args2"]}
{"id": "C107", "title": "A file name stands for the case in the file", "statement": "An optimal power flow call with a file name is the same as with the case that is in the file. The arguments agree; the case handed on does not, since only the known fields are copied: zones of reserves, interface limits, dc lines are lost.", "quantifier": "all files, loaders and further arguments", "why_tests_cant": "Tests that use such fields load the case first.", "anchors": ["pypower/opf_args.py:opf_args", "pypower/opf_args.py:opf_args2"]}
{"id": "C108", "title": "The bundled cases meet what the theorems about runs ask of a case", "statement": "Each bundled case has distinct bus numbers, known bus types, generators and branches that name buses of the case, tables of the required shape, and limits that do not contradict each other; those with costs have linear, upward curved quadratic or piecewise linear ones. Hence a DC optimal power flow that reports success on one of them has a cost that no schedule of the case undercuts by more than the tolerances of the solver allow.", "quantifier": "all 13 bundled cases; any solver of linear systems, options and schedules", "why_tests_cant": "A case file that contradicts itself gives runs that fail or give strange results; a test has to guess the optimum, the theorem compares with all schedules.", "anchors": ["pypower/case4gs.py:case4gs", "pypower/case6ww.py:case6ww", "pypower/case9.py:case9", "pypower/case9Q.py:case9Q", "pypower/case14.py:case14", "pypower/case24_ieee_rts.py:case24_ieee_rts", "pypower/case30.py:case30", "pypower/case30Q.py:case30Q", "pypower/case30pwl.py:case30pwl", "pypower/case39.py:case39", "pypower/case57.py:case57", "pypower/case118.py:case118", "pypower/case300.py:case300", "pypower/dcopf_solver.py:dcopf_solver"]}
{"id": "C109", "title": "A DC power flow run reports the solution of the case, and there is only one", "statement": "In a case whose branches in service have positive reactance and join every bus to a reference bus, at most one set of angles carries the scheduled generation to the loads with the reference angles given; a DC power flow run reports exactly these angles, and the flows belonging to them. All bundled cases but case300 (one branch of negative reactance) are such cases.", "quantifier": "all well-formed cases with a generator at each reference bus, all angles that solve the equations; 12 bundled cases", "why_tests_cant": "A test compares with angles from another program; the theorem compares with every solution, in the bus numbers of the case, and shows that there is no second one.", "anchors": ["pypower/runpf.py:runpf", "pypower/dcpf.py:dcpf", "pypower/makeBdc.py:makeBdc", "pypower/ext2int.py:ext2int", "pypower/int2ext.py:int2ext"]}
{"id": "C11", "title": "Polynomial generator cost and its derivatives", "statement": "polycost evaluates the polynomial given by the coefficients (highest first) at the given power, and its first and second derivative outputs are the true derivatives of that polynomial, for every degree.", "quantifier": "every coefficient list, mixed NCOST rows, every real operating point", "why_tests_cant": "universal over reals and degrees; derivative statement is analytic", "anchors": ["pypower/polycost.py:polycost"]}
{"id": "C110", "title": "An option has the value given, else that of the base, else its default", "statement": "After ppoption(base, NAME=value, \u2026) each option has the value given in the call, else the value in the base, else (without a base) the default listed for it, and no other names appear; the DC wrappers set PF_DC and nothing else. (False for the Gurobi options, which are listed but get no default.)", "quantifier": "all base dicts, all sets of given options, all names", "why_tests_cant": "A test reads a few options; the theorem is an equivalence over all names and all bases.", "anchors": ["pypower/ppoption.py:ppoption", "pypower/rundcpf.py:rundcpf", "pypower/rundcopf.py:rundcopf", "pypower/runduopf.py:runduopf", "pypower/dcopf.py:dcopf"]}
{"id": "C111", "title": "The DC optimal power flow calls the solver its code names, with the settings of the options", "statement": "OPF_ALG_DC 200/250 calls PIPS without/with step control, with tolerances and limits from the options (feasibility tolerance OPF_VIOLATION if not set); 0 calls the first solver available; 400\u2013700 call IPOPT, CPLEX, MOSEK, Gurobi; other codes are rejected. (False for 400\u2013700, and for 0 where CPLEX, MOSEK or Gurobi can be imported: these calls always end in an error while the settings are put together.)", "quantifier": "all option dicts, all codes, all sets of installed solvers", "why_tests_cant": "A test runs on one machine; the theorems cover every combination of installed solvers and options.", "anchors": ["pypower/dcopf_solver.py:dcopf_solver", "pypower/opf_execute.py:opf_execute", "pypower/qps_pypower.py:qps_pypower", "pypower/ipopt_options.py:ipopt_options", "pypower/cplex_options.py:cplex_options", "pypower/mosek_options.py:mosek_options", "pypower/gurobi_options.py:gurobi_options"]}
{"id": "C112", "title": "A quadratic program goes to the solver its code names, and unknown codes are rejected", "statement": "qps_pypower calls the solver of the code in the options, keeps the settings given for PIPS but for the iteration limit, step control and messages, and rejects codes that name no solver. (The last part is false: every such code goes to Gurobi, because of elif 700.)", "quantifier": "all option records, all codes", "why_tests_cant": "A test tries the listed codes; the theorem covers all integers.", "anchors": ["pypower/qps_pypower.py:qps_pypower"]}
{"id": "C113", "title": "The AC optimal power flow calls the solver its code names", "statement": "OPF_ALG 0 and 560 call PIPS, 565 PIPS with step control, with the settings of the options; 580 calls IPOPT or reports that it is missing; old codes are renamed; the codes listed in ppoption call the solver listed. (False for the listed codes 500, 540, 545 and for all old codes: the renaming never happens, and the call ends with an unbound name.)", "quantifier": "all option dicts, all codes", "why_tests_cant": "A test tries 560; the theorems cover all codes, and show that the renaming branch is dead.", "anchors": ["pypower/opf_execute.py:opf_execute", "pypower/pipsopf_solver.py:pipsopf_solver", "pypower/ppoption.py:ppoption"]}
{"id": "C114", "title": "A DC power flow depends on the network in service, not on how the case describes it", "statement": "Two cases that describe one network in service (other bus numbers, rows in another order, other rows for elements out of service, other voltages, ratings, limits and scheduled output at reference buses) give DC power flow runs that report the same angle and generation at each bus and the same flows on each branch.", "quantifier": "all pairs of well-formed cases describing one network, with positive reactances, connected to reference buses with generators; any two exact linear solvers", "why_tests_cant": "A relation between two runs; a test would have to try all numberings and orders.", "anchors": ["pypower/runpf.py:runpf", "pypower/ext2int.py:ext2int", "pypower/int2ext.py:int2ext", "pypower/dcpf.py:dcpf", "pypower/makeBdc.py:makeBdc"]}
{"id": "C115", "title": "The results of a DC power flow are affine in loads, generation and phase shifts", "statement": "Take two cases with the same buses, generators and branches, and a third whose loads, shunt conductances, scheduled generation, phase shifts and reference angles are (1-t) times those of the first plus t times those of the second. The DC power flow of the third case reports, at each bus and branch in service, angles, flows and generation that are the same blend of those reported for the first two.", "quantifier": "all t in the field (also outside [0,1]), all well-formed cases with positive reactances, connected to reference buses with generators; any exact linear solver", "why_tests_cant": "A relation between three runs that must hold for every blend; sampling finitely many blends cannot show it.", "anchors": ["pypower/runpf.py:runpf", "pypower/dcpf.py:dcpf", "pypower/makeBdc.py:makeBdc", "pypower/makeSbus.py:makeSbus"]}
{"id": "C116", "title": "A power flow gives the same results for tables written with whole numbers", "statement": "A DC power flow of a case reports the same tables whether or not the numbers of the bus and generator table are written with a decimal point (as 100.0 or 100), so the reported generation covers load, shunts and flows at every bus in both cases.", "quantifier": "all well-formed cases whose tables hold whole numbers, all exact or inexact linear solvers", "why_tests_cant": "The values of both cases are equal and compare as equal; only the kind of array differs, and results that happen to be whole hide the difference.", "anchors": ["pypower/runpf.py:runpf", "pypower/case9.py:case9"]}
{"id": "C117", "title": "A case saved to a Python file loads again with the same data", "statement": "Saving a case to a Python file and loading that file gives a case with the same base power and the same bus, generator, branch, area and cost tables, up to the rounding of the written numbers (9 digits; 4 decimals for results and multipliers; none for bus numbers, types, areas, zones and status).", "quantifier": "all cases with tables, all file names, all functions for rounding to 9 digits and 4 decimals", "why_tests_cant": "Widths of tables, padding of cost rows, infinite limits and file names each select another path, and a failure shows only when the file is read later.", "anchors": ["pypower/savecase.py:savecase", "pypower/loadcase.py:loadcase"]}
{"id": "C118", "title": "User constraints, costs and variables of a case can be saved", "statement": "A case with user constraints, user costs, or start values and bounds of user variables can be saved to a Python file that loads again; so can a case in the old format.", "quantifier": "all cases with tables, all user data, all file names", "why_tests_cant": "Saving user data needs a case with general constraints, which no bundled case has.", "anchors": ["pypower/savecase.py:savecase", "pypower/savecase.py:print_sparse"]}
{"id": "C119", "title": "Options given on the command line are in force in the run", "statement": "Each option that is set on the command line has the written value in the run, the last one if it is set more than once, and every other option has its default; every option can be set to each of its values this way.", "quantifier": "both commands, all lists of long options, all texts, all functions that read numbers", "why_tests_cant": "Tests of the commands use defaults; the types of options follow from the defaults, and values reach the run through a callback of the parser.", "anchors": ["pypower/main.py:option_callback", "pypower/main.py:add_options", "pypower/main.py:parse_options"]}
{"id": "C12", "title": "Piecewise-linear generator cost", "statement": "totcost of a piecewise-linear cost returns the given cost at each breakpoint, interpolates linearly between neighbouring breakpoints, and extends the end segments linearly outside; for increasing breakpoints with non-decreasing slopes it is the maximum of its segment lines (convex).", "quantifier": "every breakpoint list with strictly increasing x and every operating point", "why_tests_cant": "universal over reals", "anchors": ["pypower/totcost.py:totcost"]}
{"id": "C120", "title": "A DC power flow of its own results changes nothing", "statement": "If the case that a DC power flow returns is run again, then angles, branch flows and the generation at each bus are the same as before.", "quantifier": "all well-formed cases in external order with positive reactances in which every bus that is not isolated is connected to a reference bus with a generator, all exact solvers, all base powers other than zero", "why_tests_cant": "Idempotence holds only if the results written into the tables are the solution of the case they describe, for every network; tests compare a run with stored numbers.", "anchors": ["pypower/runpf.py:runpf", "pypower/dcpf.py:dcpf"]}
{"id": "C121", "title": "A DC power flow has no losses", "statement": "The sum of the reported generation is the sum of load and shunt conductance over all buses that are not isolated.", "quantifier": "all well-formed cases in external order whose reference buses have a generator, all exact solvers", "why_tests_cant": "A sum over all rows of tables of any size; a wrong sign in one of the terms can cancel in a small network.", "anchors": ["pypower/runpf.py:runpf", "pypower/makeBdc.py:makeBdc"]}
{"id": "C122", "title": "Polynomial costs are turned into piecewise linear ones", "statement": "For every table of polynomial costs, limits and number of points, the function returns a table of piecewise linear costs through points of the polynomials, and leaves the table that it was given as it was.", "quantifier": "all tables, all limits in integers or floats, all numbers of points, all roundings, all evaluations of costs", "why_tests_cant": "Nothing in the package calls the function and no test does; that every branch fails needs all types and signs of limits.", "anchors": ["pypower/poly2pwl.py:poly2pwl"]}
{"id": "C123", "title": "The interfaces to CPLEX, Gurobi, IPOPT and MOSEK fail before they call their solver", "statement": "Whatever quadratic or linear program is handed to one of the four interfaces, as dense or sparse matrices, with or without bounds, it raises an exception and does not call the solver, also if the package is installed.", "quantifier": "all sizes and types of matrices, all vectors, missing arguments, all outcomes of reading options", "why_tests_cant": "The packages are not installed where tests run, and one failing program does not show that all fail.", "anchors": ["pypower/qps_cplex.py:qps_cplex", "pypower/qps_gurobi.py:qps_gurobi", "pypower/qps_ipopt.py:qps_ipopt", "pypower/qps_mosek.py:qps_mosek"]}
{"id": "C124", "title": "Linear indices find the entries they stand for", "statement": "For every table and every pair of subscripts the linear index finds the entry of the table with these subscripts in the flattened table, in both orders; subscripts outside the table are rejected.", "quantifier": "all tables with rows of the same length, all subscripts, both orders", "why_tests_cant": "Index arithmetic with remainders for all sizes of tables; a test on square tables does not tell the orders apart.", "anchors": ["pypower/util.py:sub2ind", "pypower/dcopf_solver.py:dcopf_solver"]}
{"id": "C125", "title": "The structures handed to IPOPT hold every derivative", "statement": "For every network, every set of limited branches, every kind of flow limit and every point, each derivative of a constraint that is not zero has its place in the structure of the Jacobian that IPOPT was given, and its value is handed over at that place; the same for the Hessian.", "quantifier": "all networks in internal numbering, all points, all kinds of flow limit, any additional linear constraints", "why_tests_cant": "The structure is built once from the topology while the values come from products of admittances, voltages and injections; a missing place silently drops a derivative, and only at points where it is not zero.", "anchors": ["pypower/ipoptopf_solver.py:ipoptopf_solver", "pypower/ipoptopf_solver.py:eval_jac_g", "pypower/ipoptopf_solver.py:eval_h"]}
{"id": "C126", "title": "The constraints handed to IPOPT are those of the optimal power flow", "statement": "For every network, every kind of flow limit and every point, the constraint values lie between the bounds handed to IPOPT exactly if active and reactive power balance at every bus, no flow exceeds its limit at either end, and the linear constraints hold; and row i of the Jacobian is the gradient of constraint i.", "quantifier": "all networks of consistent shape, all points, any linear constraints with finite or infinite bounds; gradients over the reals with positive voltages and at least one limited branch", "why_tests_cant": "Values, bounds and derivatives are assembled in three places and are only related by the order of their blocks; a test would need a run of the external solver.", "anchors": ["pypower/ipoptopf_solver.py:ipoptopf_solver", "pypower/ipoptopf_solver.py:eval_g", "pypower/ipoptopf_solver.py:eval_jac_g"]}
{"id": "C127", "title": "The multipliers reported after IPOPT are those that IPOPT returned", "statement": "The lower and upper multipliers of every power balance and every linear constraint are not negative, one of them is zero, and their difference is the multiplier of IPOPT; a limited branch gets 2 lambda rate / base at each end, every other branch zero; and pimul lists minus the multipliers of balances and linear constraints, -1 for the cost if costs are piecewise linear, and the differences of the bound multipliers, each at its offset.", "quantifier": "all numbers of buses, branches, linear constraints and costs, any distinct limited branches, any multipliers, over every ordered field", "why_tests_cant": "Signs and offsets only matter when a particular constraint binds; a test needs the external solver and a case in which each kind of constraint binds from each side.", "anchors": ["pypower/ipoptopf_solver.py:ipoptopf_solver"]}
{"id": "C128", "title": "Costs of active and reactive power are separated by generator", "statement": "A call of pqcost returns exactly if the table has one or two rows per generator and every chosen generator exists; then the active rows are those of the chosen generators in their order, the reactive ones their rows in the second half, and without a choice the two parts put together are the table. The rows that the DC optimal power flow keeps are the active ones.", "quantifier": "all tables, all numbers of generators, all selections including repeated and missing generators", "why_tests_cant": "A row from the wrong half is a well-formed cost; it only changes a number in an optimization.", "anchors": ["pypower/pqcost.py:pqcost", "pypower/opf_setup.py:opf_setup"]}
{"id": "C129", "title": "The old value of a nested field is stored under its names and nothing else changes", "statement": "A call of e2i_field or i2e_field with a list of names leaves the value from before the conversion in order['ext'] or order['int'] under these names, keeps every other stored value, and adds nothing else.", "quantifier": "all dicts of stored values, all lists of names, any values", "why_tests_cant": "The step into the next dict happens only for names that are new; the fields used in the package have two levels, and stray keys do no visible harm, so the tests do not see it.", "anchors": ["pypower/e2i_field.py:e2i_field", "pypower/i2e_field.py:i2e_field"]}
{"id": "C13", "title": "Cost scaling and shifting", "statement": "modcost with SCALE_F/SCALE_X/SHIFT_F/SHIFT_X and factor a returns costs F with F(x) = a*f(x), F(a*x) = f(x), F(x) = f(x)+a, F(x+a) = f(x) respectively (as evaluated by totcost), for tables mixing polynomial and piecewise-linear rows; SCALE_X for a > 0.", "quantifier": "every cost table, factor and operating point", "why_tests_cant": "universal over reals and degrees", "anchors": ["pypower/modcost.py:modcost", "pypower/modcost.py:polyshift", "pypower/totcost.py:totcost"]}
{"id": "C130", "title": "The list and the dict that loadcase returns agree, and so do file and dict", "statement": "If loadcase returns a list of tables, it returns a dict for the same input with return_as_obj, and the list has its base, buses, generators and branches, then the areas and costs asked for. A file gives what its dict gives, except that missing data give exit code 5; a file that does not exist gives code 2.", "quantifier": "every input, every outcome of reading a file, every combination of expected outputs", "why_tests_cant": "All combinations of missing tables, options and forms of input.", "anchors": ["pypower/loadcase.py:loadcase"]}
{"id": "C14", "title": "Polynomial shift", "statement": "polyshift(c, a) returns coefficients of the polynomial x -> p(x - a) of the same degree.", "quantifier": "every coefficient list and shift", "why_tests_cant": "universal over degrees", "anchors": ["pypower/modcost.py:polyshift"]}
{"id": "C15", "title": "Bus type classification", "statement": "bustypes returns three index lists; a bus with no in-service generator is never PV or reference; with types PQ/PV/REF the lists partition the buses; there is always at least one reference bus in a successful result (the first PV bus is promoted if none is given), otherwise an exception is raised.", "quantifier": "every bus and gen table", "why_tests_cant": "universal over type and status patterns", "anchors": ["pypower/bustypes.py:bustypes"]}
{"id": "C16", "title": "DC network matrices satisfy Kirchhoff's current law", "statement": "For every angle vector, Bbus*Va + Pbusinj equals at each bus the sum of the flows Bf*Va + Pfinj of the branches leaving it minus those entering it, each in-service branch flow equals (angle difference - phase shift)/(x*tap), and out-of-service branches carry no flow.", "quantifier": "every branch table (tap zero or not, any shifts and statuses) and every angle vector", "why_tests_cant": "universal over networks and reals", "anchors": ["pypower/makeBdc.py:makeBdc"]}
{"id": "C17", "title": "DC power flow results balance at every bus", "statement": "After a DC power flow whose linear solve succeeds, at every bus generation minus load minus shunt conductance equals the sum of the branch flows leaving the bus, the reference bus angle and all non-reference generation and load are unchanged, voltage magnitudes are 1, and to-end flows are the negated from-end flows.", "quantifier": "every case data set for which the reduced linear system is solved exactly", "why_tests_cant": "universal over networks", "anchors": ["pypower/runpf.py:runpf", "pypower/dcpf.py:dcpf", "pypower/makeBdc.py:makeBdc", "pypower/makeSbus.py:makeSbus"]}
{"id": "C18", "title": "PTDF predicts DC flows", "statement": "If injections change by dP at every bus other than the slack (single slack), or by dP minus the slack shares w_i/sum(w) of the imbalance (distributed slack), or by W*dP (slack matrix), every branch's DC flow changes by its makePTDF row times dP, phase shifters or not; without phase shifters the row times the injections is the flow itself. The slack-bus column is zero, and for a distributed slack the slack-weighted combination of columns is zero; with no slack given the first reference bus is used.", "quantifier": "every network on which the function returns, every injection vector and slack choice, with an exact linear solver", "why_tests_cant": "universal over networks and injections", "anchors": ["pypower/makePTDF.py:makePTDF"]}
{"id": "C19", "title": "LODF predicts post-outage flows exactly", "statement": "If branch o is switched off and the injections stay the same, the flow on any other branch k in the new DC solution equals pre-outage flow k plus LODF[k,o] times pre-outage flow o; diagonal entries are -1; and the column is finite whenever the remaining network can still carry a transfer between the ends of o.", "quantifier": "every network, outage, injection vector and slack choice (single or weighted)", "why_tests_cant": "universal over networks", "anchors": ["pypower/makeLODF.py:makeLODF", "pypower/makePTDF.py:makePTDF"]}
{"id": "C20", "title": "Bus admittance matrix is the sum of branch pi-models and shunts", "statement": "For every voltage vector, Ybus*V at a bus equals the sum over in-service branches at that bus of the pi-model end currents Yf*V / Yt*V plus the shunt current; out-of-service branches contribute nothing; the branch end currents satisfy the transformer pi-circuit equations.", "quantifier": "every branch and bus table and every complex voltage vector", "why_tests_cant": "universal over networks and complex vectors", "anchors": ["pypower/makeYbus.py:makeYbus"]}
{"id": "C21", "title": "AC power flow convergence flag is meaningful", "statement": "newtonpf, gausspf and fdpf set their convergence flag exactly when the returned voltages satisfy the power flow equations of the given injections: active mismatch at PV and PQ buses and reactive mismatch at PQ buses below the tolerance (for fdpf, tolerance times voltage magnitude). They never run more than the allowed number of iterations, and stop early only when converged. Voltages at the other (reference) buses and magnitudes at PV buses are returned unchanged.", "quantifier": "every network, every start point, every behaviour of the linear solver, every tolerance and iteration limit", "why_tests_cant": "quantifies over all numerical trajectories", "anchors": ["pypower/newtonpf.py:newtonpf", "pypower/gausspf.py:gausspf", "pypower/fdpf.py:fdpf"]}
{"id": "C22", "title": "Power flow solution update conserves power", "statement": "pfsoln distributes the reactive injection required at each bus over its in-service generators so that they sum to the requirement (exactly when there is one generator or the limits coincide, otherwise up to the machine-epsilon enlargement of the range, which is stated exactly), equally or in proportion to their ranges; sets the first generator at each reference bus so that active power sums to the bus's requirement; sets branch flows to the complex power entering at each end; zeroes reactive output of out-of-service generators and flows of out-of-service branches; writes voltages to VM and VA; and changes no other cell.", "quantifier": "every network, voltage solution, generator placement and list of reference buses", "why_tests_cant": "universal over placements and reals", "anchors": ["pypower/pfsoln.py:pfsoln"]}
{"id": "C23", "title": "First derivatives of bus injections", "statement": "The matrices returned by dSbus_dV are the partial derivatives of the complex bus injections with respect to voltage magnitude and angle.", "quantifier": "every admittance matrix and every polar voltage vector with positive magnitudes", "why_tests_cant": "analytic statement over all reals", "anchors": ["pypower/dSbus_dV.py:dSbus_dV"]}
{"id": "C24", "title": "First derivatives of branch flows and currents", "statement": "The matrices returned by dSbr_dV and dIbr_dV are the partial derivatives of the complex branch flows and currents, and dAbr_dV those of the squared flow magnitudes.", "quantifier": "every branch table, admittance matrices and polar voltage vector with positive magnitudes", "why_tests_cant": "analytic statement over all reals", "anchors": ["pypower/dSbr_dV.py:dSbr_dV", "pypower/dIbr_dV.py:dIbr_dV", "pypower/dAbr_dV.py:dAbr_dV"]}
{"id": "C25", "title": "Second derivatives used in the OPF Hessian", "statement": "d2Sbus_dV2 returns the second partial derivatives of lam . Sbus with respect to angles and magnitudes; likewise d2Sbr_dV2 and d2Ibr_dV2 for branch flows and currents.", "quantifier": "every admittance matrix, multiplier vector and polar voltage vector with positive magnitudes", "why_tests_cant": "analytic statement over all reals", "anchors": ["pypower/d2Sbus_dV2.py:d2Sbus_dV2", "pypower/d2Sbr_dV2.py:d2Sbr_dV2", "pypower/d2Ibr_dV2.py:d2Ibr_dV2"]}
{"id": "C26", "title": "PIPS: the interior-point reformulation keeps the feasible set", "statement": "Splitting l <= A x <= u and xmin <= x <= xmax into equalities and one-sided inequalities loses and adds no feasible points: x satisfies the split system iff it satisfies the original bounds (bounds of magnitude 1e10 or more meaning unbounded, bounds closer than machine epsilon meaning equality).", "quantifier": "every bounds vectors and every x", "why_tests_cant": "universal over bounds patterns including infinities", "anchors": ["pypower/pips.py:pips"]}
{"id": "C27", "title": "PIPS: iterates stay strictly interior and terminate", "statement": "For every problem and every behaviour of the linear solver, slack variables and inequality multipliers remain strictly positive in every iteration, and the loop performs at most max_it iterations.", "quantifier": "all problems, all linear solver outputs, all iteration counts", "why_tests_cant": "invariant over unbounded iteration histories", "anchors": ["pypower/pips.py:pips"]}
{"id": "C28", "title": "PIPS: success flag implies the four termination conditions", "statement": "If PIPS reports convergence, the feasibility, gradient, complementarity and cost conditions at the returned point are each below their tolerances; if it does not, it reports failure with the iteration count.", "quantifier": "all problems and solver trajectories", "why_tests_cant": "quantifies over trajectories", "anchors": ["pypower/pips.py:pips"]}
{"id": "C29", "title": "PIPS: returned multipliers are consistent", "statement": "Returned mu_l, mu_u, lower, upper and ineqnonlin are non-negative (positive cost multiplier), and for each linear constraint and bound mu_u - mu_l equals, up to the cost multiplier, the signed multiplier of that row in the Lagrangian whose gradient the algorithm drove below its tolerance, except that multipliers below 1e-5 of clearly inactive constraints are set to zero. Rows whose equal bounds are of magnitude 1e10 or more are excluded (see C52).", "quantifier": "all problems, linear-solver behaviours and trajectories", "why_tests_cant": "quantifies over trajectories", "anchors": ["pypower/pips.py:pips"]}
{"id": "C30", "title": "DC OPF objective equals the generation cost", "statement": "The quadratic program handed to the LP/QP solver by dcopf_solver has, at every point, objective value (plus the constant term) equal to the total generation cost of the dispatch plus the piecewise-linear cost variables plus the user cost; the gradient given to the solver is that of the objective; the reported cost f is the cost of the reported point.", "quantifier": "every gencost table with linear, quadratic and piecewise-linear rows, every symmetric user cost without shift (rh = 0), every dispatch", "why_tests_cant": "universal over cost data and dispatch", "anchors": ["pypower/dcopf_solver.py:dcopf_solver", "pypower/qps_pips.py:qps_pips"]}
{"id": "C31", "title": "Piecewise-linear cost constraints (CCV) encode the cost", "statement": "The constraints built by makeAy for cost variable y_i and generator output p_i hold iff y_i is at least the value of every segment line of the cost at p_i, hence for a convex cost exactly if y_i is at least the cost that totcost computes at p_i; proper data are accepted.", "quantifier": "every table of active power costs (piecewise-linear rows with any number of breakpoints, mixed with polynomial rows) and every point", "why_tests_cant": "universal over breakpoints and dispatch", "anchors": ["pypower/makeAy.py:makeAy", "pypower/opf_setup.py:opf_setup", "pypower/totcost.py:totcost"]}
{"id": "C32", "title": "Angle-difference, power-factor and capability-curve constraints", "statement": "The linear constraints built by makeAang, makeAvl and makeApq hold at a point iff the corresponding physical limits do: branch angle differences within their limits, dispatchable loads at constant power factor, generator P-Q operating point below/above the sloped capability edges; unconstrained elements get no rows.", "quantifier": "every branch/gen table and every operating point", "why_tests_cant": "universal", "anchors": ["pypower/makeAang.py:makeAang", "pypower/makeAvl.py:makeAvl", "pypower/makeApq.py:makeApq", "pypower/hasPQcap.py:hasPQcap"]}
{"id": "C33", "title": "DC OPF constraints and reported solution", "statement": "A point satisfies the constraints and bounds of the DC OPF formulation iff every bus is balanced, each branch with a limit (RATE_A neither 0 nor >= 1e10) carries a DC flow within plus/minus RATE_A, outputs are within PMIN/PMAX, reference angles are as given, angle difference limits hold, cost variables lie on or above their segments and user constraints hold. A run reported as successful ends at such a point up to the solver's tolerance, and the reported angles, outputs, flows and multipliers are those of that point and of the constraints they are named after.", "quantifier": "every network, cost table, user constraint matrix and point; every solver run", "why_tests_cant": "universal over networks and points", "anchors": ["pypower/opf_setup.py:opf_setup", "pypower/dcopf_solver.py:dcopf_solver"]}
{"id": "C34", "title": "AC OPF cost callback: value and gradient", "statement": "When some polynomial cost row is not the first and the user cost matrix has a nonzero entry or no rows, opf_costfcn returns the sum of the cost variables, the polynomial costs of all active and reactive outputs in MW and MVAr and the user cost with dead zones; with symmetric H every entry of the returned gradient is the partial derivative of that cost, at every point not on the edge of the dead zone of a linear user cost row.", "quantifier": "every cost table, user cost data and point; every variable", "why_tests_cant": "universal over cost tables, dead zones and points; finite differences only sample", "anchors": ["pypower/opf_costfcn.py:opf_costfcn", "pypower/polycost.py:polycost"]}
{"id": "C35", "title": "Load totals and load scaling", "statement": "Whenever total_load returns, each zone total is the sum of the fixed loads and of the nominal demands of the in-service dispatchable loads of that zone, as far as asked for. Whenever scale_load returns, the fixed loads and in-service dispatchable loads of each zone are multiplied by the factor of that zone, all other cells and zones are unchanged, and with QUANTITY the zone totals equal the requested amounts. ScalingError is raised exactly when a zone without scalable load is asked for another total.", "quantifier": "every case with distinct bus numbers (any order) whose dispatchable loads sit at listed buses, every zone assignment, every option combination", "why_tests_cant": "universal over cases and options", "anchors": ["pypower/total_load.py:total_load", "pypower/scale_load.py:scale_load"]}
{"id": "C36", "title": "Unit decommitment never worsens the solution and terminates", "statement": "Whenever uopf returns, its result comes from the initial OPF by shutting down one unit per stage, each time the cheapest successful strictly improving shutdown among the units at a binding positive minimum, until no such shutdown improves; so it is the initial result or a strictly cheaper success. The units shut down are distinct, were in service and are off in the result; all others keep their status. The loop ends after at most one stage more than there are units in service. Out-of-service generators are reported with zero output and zero limit prices.", "quantifier": "every case and every behaviour of the inner OPF (termination and unit statements: every OPF that keeps the status column and lists units with status 0 as off)", "why_tests_cant": "quantifies over solver behaviours", "anchors": ["pypower/uopf.py:uopf", "pypower/opf.py:opf"]}
{"id": "C37", "title": "Enabling and disabling OPF extensions", "statement": "toggle_reserves, toggle_iflims and toggle_dcline 'on' register exactly their five callbacks in addition to those present, and 'off' afterwards restores the previous registrations.", "quantifier": "every prior registration state", "why_tests_cant": "history-dependent", "anchors": ["pypower/toggle_reserves.py:toggle_reserves", "pypower/toggle_iflims.py:toggle_iflims", "pypower/toggle_dcline.py:toggle_dcline"]}
{"id": "C38", "title": "DC line model", "statement": "Every in-service DC line is represented by one generator at each terminal whose dispatch limits hold iff the documented flow limits hold (a zero minimum becomes 1e-6 MW), the added constraint on the dispatch holds iff received power equals sent power minus LOSS0 + LOSS1 * sent power, out-of-service lines add nothing, terminals become PV buses, added costs are zero, and reported flows and limit prices are those of the pair, written to the line they belong to.", "quantifier": "every dcline table, generator table and dispatch for which the callbacks finish", "why_tests_cant": "universal over line tables and dispatches; the shipped test for DC lines is disabled", "anchors": ["pypower/toggle_dcline.py:userfcn_dcline_ext2int", "pypower/toggle_dcline.py:userfcn_dcline_formulation", "pypower/toggle_dcline.py:userfcn_dcline_int2ext"]}
{"id": "C39", "title": "Interface flow limits", "statement": "With an integer interface map and limits listed by increasing interface number, the interface constraint holds iff the signed sum of the DC flows of the listed in-service branches, other than the first in-service branch, is within the limits of that interface; the reported interface flow is the same signed sum of the solved branch flows; with every branch in service the map is returned unchanged.", "quantifier": "every interface map, limits, status pattern and angle vector", "why_tests_cant": "universal over maps and status patterns", "anchors": ["pypower/toggle_iflims.py:userfcn_iflims_ext2int", "pypower/toggle_iflims.py:userfcn_iflims_formulation", "pypower/toggle_iflims.py:userfcn_iflims_int2ext"]}
{"id": "C40", "title": "Reactive limit enforcement in runpf never returns a violating solution", "statement": "With ENFORCE_Q_LIMS set, whatever the AC power flow returns is the plain power flow solution, in which every in-service generator is within its reactive limits to the violation tolerance, with bus types, loads and generator statuses as given.", "quantifier": "every case, algorithm, tolerance, solver behaviour and library version", "why_tests_cant": "quantifies over every pattern of violations and every solver behaviour", "anchors": ["pypower/runpf.py:runpf"]}
{"id": "C41", "title": "User constraint and cost matrices follow the renumbering", "statement": "After ext2int, the columns of a user-supplied matrix A (or N), dense or sparse, are those of the in-service buses and generators in internal order, so that the user's constraints still constrain the same physical variables.", "quantifier": "every well-formed case with a user matrix, dense or sparse", "why_tests_cant": "A test on a case whose numbering is already internal cannot see a missing reordering; the claim quantifies over all numberings and both storage formats.", "anchors": ["pypower/ext2int.py:ext2int", "pypower/e2i_data.py:e2i_data", "pypower/e2i_field.py:e2i_field"]}
{"id": "C42", "title": "Solved version-1 results survive the conversion", "statement": "Converting a solved version-1 case keeps the branch flows, branch multipliers and all four generator multipliers in the version-2 column of the same quantity. (This is false for the code: the real from-end flow is dropped, every later branch result moves one column to the left, and the Qmin multiplier is dropped.)", "quantifier": "every version-1 branch table of 15 or 17 columns and gen table of 14 columns", "why_tests_cant": "no test loads a solved version-1 case", "anchors": ["pypower/loadcase.py:ppc_1to2"]}
{"id": "C43", "title": "Outcome of loading a dict", "statement": "Given a dict, loadcase returns a case exactly when the four required keys (and gencost/areas when asked for) are present with values. The documented exit codes 1 and 5 for a non-case object or missing data are never returned for anything but a path: an exception is raised instead.", "quantifier": "every dict, every combination of expected outputs", "why_tests_cant": "all combinations of missing keys and options", "anchors": ["pypower/loadcase.py:loadcase"]}
{"id": "C44", "title": "OPF model: optional cost parameters and named cost queries", "statement": "The optional cost parameters dd, rh, kk and mm given to add_costs take part in the evaluated cost, and querying the parameters of one named set does not change the answer of later queries.", "quantifier": "every cost set and every sequence of queries", "why_tests_cant": "the result depends on the history of queries and on parameters few users pass", "anchors": ["pypower/opf_model.py:opf_model.add_costs", "pypower/opf_model.py:opf_model.get_cost_params", "pypower/opf_model.py:opf_model.compute_cost"]}
{"id": "C45", "title": "OPF model: constraints keep their meaning when variables are added later", "statement": "Adding a further variable set after a linear constraint set was declared does not change which values of the earlier variables satisfy the assembled constraints.", "quantifier": "every model and every later variable set", "why_tests_cant": "depends on the order of calls; a list shared by reference", "anchors": ["pypower/opf_model.py:opf_model.add_constraints", "pypower/opf_model.py:opf_model.linear_constraints"]}
{"id": "C46", "title": "Horizontal cost scaling by a negative factor", "statement": "modcost with SCALE_X and any non-zero factor a returns a cost F with F(a*x) = f(x), as documented.", "quantifier": "every cost row, every non-zero factor and operating point", "why_tests_cant": "negative factors are rarely tried; the breakpoint order matters", "anchors": ["pypower/modcost.py:modcost", "pypower/totcost.py:totcost"]}
{"id": "C47", "title": "Fast-decoupled matrices", "statement": "Without phase shifters, makeB's B' for the XB method applied to any vector x gives at each bus the net flow of the branches with conductances status/x (no taps, no resistances, no shunts) - with unit taps exactly the DC Bbus - and B'' (XB) is minus the imaginary part of Ybus.", "quantifier": "every branch and bus table, every vector", "why_tests_cant": "universal over networks", "anchors": ["pypower/makeB.py:makeB", "pypower/makeYbus.py:makeYbus", "pypower/makeBdc.py:makeBdc"]}
{"id": "C48", "title": "Second derivatives of squared branch flows and currents", "statement": "d2ASbr_dV2 and d2AIbr_dV2 return the second partial derivatives of the multiplier-weighted sums of squared flow and current magnitudes, given correct first derivatives and values. The same holds for the squared active flows, when the real parts of the flow derivatives and of the flows are passed in.", "quantifier": "every admittance matrix, real multiplier vector and polar voltage vector with positive magnitudes", "why_tests_cant": "analytic statement over all reals", "anchors": ["pypower/d2ASbr_dV2.py:d2ASbr_dV2", "pypower/d2AIbr_dV2.py:d2AIbr_dV2"]}
{"id": "C49", "title": "A converged AC power flow reports balanced tables", "statement": "When runpf (AC, any of its four methods, no reactive-limit enforcement) reports success, the tables it reports balance: at every bus, generation minus load, shunt consumption at the reported voltage and the reported branch flows is zero to within tolerance times base MVA for active power (exactly zero at reference buses), and for reactive power is zero up to the stated epsilon term where generators are in service and within tolerance elsewhere.", "quantifier": "every internally numbered case, every method, tolerance, iteration limit and solver behaviour", "why_tests_cant": "universal over networks and solver trajectories; ties five functions together", "anchors": ["pypower/runpf.py:runpf", "pypower/makeYbus.py:makeYbus", "pypower/makeSbus.py:makeSbus", "pypower/pfsoln.py:pfsoln"]}
{"id": "C50", "title": "AC power flow honours voltage set-points", "statement": "Converged or not, at every reference or PV bus runpf reports as voltage magnitude the set-point (in absolute value) of the last in-service generator listed at that bus; at a reference bus the reported voltage phasor has that set-point as magnitude and the angle given in the bus table.", "quantifier": "every internally numbered case, every method, tolerance, iteration limit and solver behaviour", "why_tests_cant": "universal over networks, generator placements and solver trajectories", "anchors": ["pypower/runpf.py:runpf", "pypower/newtonpf.py:newtonpf", "pypower/gausspf.py:gausspf", "pypower/fdpf.py:fdpf"]}
{"id": "C51", "title": "PIPS: the search direction is the Newton step of the perturbed optimality conditions, taken to the fraction-to-boundary length", "statement": "In every state of every run, if the linear solver is exact, the computed dx, dlam, dz, dmu satisfy the linearised stationarity, equality, inequality-with-slack and perturbed complementarity equations, i.e. the elimination of slacks and inequality multipliers from the KKT system loses nothing. The next state moves position and slacks by the primal step length and all multipliers by the dual step length along that direction (shortened by one common factor if step control is on); each length is at most 1, keeps at least the fraction 1-xi of every slack or multiplier, and reaches that fraction somewhere unless it is 1.", "quantifier": "all well-shaped problems, all states of all runs", "why_tests_cant": "universal over problems and iterates; an elimination error only slows convergence", "anchors": ["pypower/pips.py:pips"]}
{"id": "C52", "title": "PIPS: multipliers of rows fixed at very large values", "statement": "Also for rows whose lower and upper bound coincide at a magnitude of 1e10 or more, mu_u - mu_l is the signed multiplier of the row.", "quantifier": "all problems with such a row", "why_tests_cant": "needs bounds that are both equal and huge; the run itself succeeds", "anchors": ["pypower/pips.py:pips"]}
{"id": "C53", "title": "Reactive piecewise-linear costs constrain their own generator", "statement": "In the AC OPF, the constraints of makeAy tie the cost variable of each reactive piecewise-linear cost to the reactive output of the generator that cost belongs to.", "quantifier": "every cost table with rows for P and Q", "why_tests_cant": "the effect depends on which generators have reactive piecewise-linear costs; only combinations beyond the first generator go wrong", "anchors": ["pypower/makeAy.py:makeAy", "pypower/opf_setup.py:opf_setup"]}
{"id": "C54", "title": "DC OPF objective with shifted user costs", "statement": "Also with a non-zero shift rh in the user costs the DC OPF objective plus the constant term equals the generation cost plus the user cost.", "quantifier": "every user cost with a shift", "why_tests_cant": "only the reported cost is off, by a constant that vanishes when the linear part or the shift is zero", "anchors": ["pypower/dcopf_solver.py:dcopf_solver"]}
{"id": "C55", "title": "DC OPF objective with polynomial costs of any order", "statement": "The DC OPF objective accounts for polynomial costs of every order, or the run is rejected.", "quantifier": "every polynomial cost table", "why_tests_cant": "constants and orders above two are dropped silently", "anchors": ["pypower/dcopf_solver.py:dcopf_solver"]}
{"id": "C56", "title": "PIPS: near-optimality of converged runs on convex problems", "statement": "For a problem with linear constraints only, if pips reports success then no feasible point at which the cost lies above its linearisation at the returned point (hence no feasible point at all, for a convex cost) is cheaper by more than gradtol(1+s)|y-x|_1 + feastol(1+t)|lam|_1 + comptol(1+|x|) + sum mu|h+z|.", "quantifier": "every cost function, constraint matrix, bounds, start, options, linear solver and every feasible competitor", "why_tests_cant": "optimality compares the result with every feasible point", "anchors": ["pypower/pips.py:pips"]}
{"id": "C57", "title": "PIPS: linear residuals shrink by a common factor", "statement": "With linear constraints and an exact linear solver every iteration multiplies all equality residuals g and all slack residuals h+z by one factor 1-alpha in [0,1); a full step makes them exactly zero; inequalities satisfied with margin 1 at the start never have a slack residual.", "quantifier": "every problem with linear constraints, every state of every run", "why_tests_cant": "it is an invariant of all intermediate states, which the solver does not expose", "anchors": ["pypower/pips.py:pips"]}
{"id": "C58", "title": "The DC optimal power flow result is near-optimal", "statement": "With generator costs curved upwards, a convex unshifted user cost and limits that coincide or are clearly apart, a DC OPF reported as successful has a cost that exceeds the cost of no feasible dispatch by more than the solver's tolerances allow: the gradient tolerance times the distance to that dispatch, the feasibility tolerance times the sum of the equality multipliers, the complementarity tolerance and the slack error weighted by the inequality multipliers.", "quantifier": "every network, cost table, user constraint and cost set, solver oracle and option setting; every feasible dispatch it is compared with", "why_tests_cant": "compares the result with every feasible dispatch; a test can only compare with finitely many", "anchors": ["pypower/dcopf_solver.py:dcopf_solver", "pypower/qps_pips.py:qps_pips", "pypower/pips.py:pips"]}
{"id": "C59", "title": "Prices of the DC optimal power flow", "statement": "For a successful DC OPF without user constraints and costs, the reported multipliers price the dispatch: for each generator with a polynomial or single-segment cost, marginal cost minus LAM_P at its bus plus MU_PMAX minus MU_PMIN is zero up to the gradient tolerance and the clean-up of small multipliers; for each bus that is not a reference bus (angle limits absent or ignored), the price differences over the branches plus MU_SF minus MU_ST, weighted by the change of the branch flow with the angle of the bus, add up to zero up to the same tolerances.", "quantifier": "every network and cost table, every solver oracle and option setting, every generator and non-reference bus", "why_tests_cant": "an optimality condition of every solved case, tying cost derivatives, matrix columns, signs and units of the reported tables", "anchors": ["pypower/dcopf_solver.py:dcopf_solver", "pypower/makeBdc.py:makeBdc", "pypower/pips.py:pips"]}
{"id": "C60", "title": "AC OPF constraint callback returns the power balances, the flow excesses and their exact gradients", "statement": "For tables in internal numbering that fit together, opf_consfcn returns as equality constraints the active and then the reactive power balance of every bus (injection into the network plus load minus generation, per unit), and as inequality constraints the squared apparent power, active power or current (according to OPF_FLOW_LIM) at the from ends and then the to ends of the limited branches minus the squared rating. Over the reals, at every point with positive voltage magnitudes and all generators in service, it returns without an exception and column i of the returned Jacobians is the gradient of constraint i with respect to every optimisation variable.", "quantifier": "for all cases, sets of limited branches, flow-limit modes, admittance matrices and points x", "why_tests_cant": "tests compare a few optimal solutions and finite differences at sampled points; the identity between returned Jacobian and derivative must hold at every point of every network", "anchors": ["pypower/opf_consfcn.py:opf_consfcn"]}
{"id": "C61", "title": "AC OPF Hessian callback returns the second derivatives of the Lagrangian", "statement": "Let opf_hessfcn be called with a nonempty list of flow-limited branches, multipliers lam of the 2*nb balances and mu of the 2*nl flow limits, one active cost row per generator of which at least one is polynomial, and a symmetric user cost matrix H. At every point with positive voltage magnitudes and with no linear or quadratic user cost row exactly at the edge of its dead zone, it returns a matrix of the size of x whose entry (j,k) is the second partial derivative, with respect to variables j and k, of cost_mult * cost + sum lam_i * P_i + sum lam_(nb+i) * Q_i + sum mu_l * F_l + sum mu_(nl+l) * T_l, for apparent power, active power and current limits alike.", "quantifier": "for every network, point x, multipliers, cost multiplier and kind of flow limit", "why_tests_cant": "Tests compare a few Hessians with finite differences on one case; the statement covers all networks, points, multipliers and user cost patterns exactly.", "anchors": ["pypower/opf_hessfcn.py:opf_hessfcn", "pypower/d2Sbus_dV2.py:d2Sbus_dV2", "pypower/d2ASbr_dV2.py:d2ASbr_dV2", "pypower/d2AIbr_dV2.py:d2AIbr_dV2", "pypower/polycost.py:polycost"]}
{"id": "C62", "title": "AC optimal power flow: assembled problem, reported tables, feasibility on success", "statement": "For every case in internal numbering with one cost row per generator, the rows and bounds assembled by opf_setup hold at a vector x exactly if voltage magnitudes, active and reactive outputs, capability-curve edges, load power factors and angle differences keep their limits, reference angles are as given, cost variables lie on or above every segment and user constraints hold. pipsopf_solver reports the voltages, outputs, set points, pi-circuit branch flows and scaled multipliers of the solver's point, its objective is the cost of that point, and when it reports success the point meets those constraints, both power balances at every bus and both ends' flow limits (apparent power, active power or current) within feastol times one plus a norm.", "quantifier": "all networks, generators, costs, user constraints, options, flow-limit kinds and linear solvers for which setup and solve return", "why_tests_cant": "Tests compare a handful of solved cases with stored numbers to a few digits; they cannot cover every arrangement of optional blocks, index shifts between full and limited branches, or show that success implies feasibility.", "anchors": ["pypower/opf_setup.py:opf_setup", "pypower/pipsopf_solver.py:pipsopf_solver", "pypower/opf_consfcn.py:opf_consfcn", "pypower/pips.py:pips"]}
{"id": "C63", "title": "AC OPF cost callback: the remaining cases", "statement": "opf_costfcn returns the cost for every cost table. Refuted: with only the first row polynomial the polynomial cost is missing from the value though not from the gradient, and without polynomial rows the callback raises TypeError; an all-zero user cost matrix drops the user cost. Proved: the exact value returned in each case and the exception.", "quantifier": "every cost table, user cost data and point", "why_tests_cant": "universal over cost tables; the test cases have several polynomial rows", "anchors": ["pypower/opf_costfcn.py:opf_costfcn"]}
{"id": "C64", "title": "AC OPF Hessian callback returns for reactive costs, unlimited branches and piecewise linear costs", "statement": "opf_hessfcn returns a matrix for every problem that opf_setup accepts, including problems with reactive cost rows, without flow-limited branches, or with only piecewise linear active costs. (Refuted: it never returns in any of these three cases.)", "quantifier": "for every network, point, multipliers and kind of flow limit", "why_tests_cant": "The bundled cases have polynomial active costs, limited branches and no reactive costs, so the failing branches are not reached.", "anchors": ["pypower/opf_hessfcn.py:opf_hessfcn"]}
{"id": "C65", "title": "Reported prices of the AC optimal power flow are shadow prices", "statement": "When the AC optimal power flow reports success, the gradient of the Lagrangian in original units, built from the derivatives of cost, bus balances and flow limits, the reported LAM_P, LAM_Q, MU_SF, MU_ST, the bound multipliers and the linear constraint multipliers, is zero in every variable up to the solver tolerance and the small multipliers it drops. For a generator with polynomial cost and no capability curve or constant power factor this says: marginal cost = LAM_P at its bus - MU_PMAX + MU_PMIN, and LAM_Q = MU_QMAX - MU_QMIN.", "quantifier": "every network, every cost and option set, every solver oracle, over real arithmetic with exact sine, cosine and modulus; successful runs with positive voltage magnitudes and all generators in service", "why_tests_cant": "Price identities involve true derivatives of the network equations at a solver-chosen point; tests compare prices of a few cases with stored numbers and cannot quantify over all networks and solver outcomes.", "anchors": ["pypower/pipsopf_solver.py:pipsopf_solver", "pypower/opf_consfcn.py:opf_consfcn", "pypower/opf_costfcn.py:opf_costfcn", "pypower/pips.py:pips"]}
{"id": "C66", "title": "Dispatchable loads with the pinned sparse library", "statement": "total_load and scale_load handle every valid case with dispatchable loads, and a scalar factor scales the whole system. Refuted: with the SciPy version pinned in requirements.txt negating a boolean sparse matrix raises, so no total with dispatchable loads is computed and no target quantity is reached in a case with generators; and the default single zone works only for one-bus cases.", "quantifier": "every case; refuted by a three-bus case, and shown for every case with generators", "why_tests_cant": "the tests of both functions are disabled; the claim covers every case", "anchors": ["pypower/total_load.py:total_load", "pypower/scale_load.py:scale_load"]}
{"id": "C67", "title": "uopf finds a commitment when minimum outputs exceed the load or the first OPF fails", "statement": "When the sum of minimum outputs exceeds the load capacity, uopf shuts down units until it does not; and uopf returns a success when one of the commitments it examines succeeds. Refuted: the first phase always raises because fairmax calls a tuple, and a failed first OPF with a low objective hides every success. What holds: uopf returns only if the minimum outputs are within the load capacity.", "quantifier": "every case and inner OPF; refuted by a two-unit case", "why_tests_cant": "the first phase is never entered by the tests", "anchors": ["pypower/uopf.py:uopf", "pypower/fairmax.py:fairmax"]}
{"id": "C68", "title": "DC line callbacks accept every valid case", "statement": "The DC line callbacks finish for every valid line table, with or without line costs and with lines out of service, and results can be written back after a solved optimal power flow.", "quantifier": "every valid case with DC lines", "why_tests_cant": "the failures need float-typed bus numbers, line costs or a line out of service; t_dcline is disabled", "anchors": ["pypower/toggle_dcline.py:userfcn_dcline_ext2int", "pypower/toggle_dcline.py:userfcn_dcline_int2ext"]}
{"id": "C69", "title": "Interface limits for every map", "statement": "Interface limits apply to all listed in-service branches, limits may be listed in any order, the user's map may hold floats and is returned unchanged.", "quantifier": "every interface map, limits and status pattern", "why_tests_cant": "needs branch 0, an out-of-service branch before a listed one, unsorted limits or a float map", "anchors": ["pypower/toggle_iflims.py:userfcn_iflims_ext2int", "pypower/toggle_iflims.py:userfcn_iflims_formulation", "pypower/toggle_iflims.py:userfcn_iflims_int2ext"]}
{"id": "C70", "title": "Reactive limit enforcement handles violated limits", "statement": "With ENFORCE_Q_LIMS set, a case whose plain power flow solution violates a generator's reactive limit is handled by fixing that generator at its limit, and the run completes.", "quantifier": "every case with a solution violating some limit", "why_tests_cant": "the failing path needs a violated limit and no test enables enforcement; the failure is in an index expression evaluated only then", "anchors": ["pypower/runpf.py:runpf"]}
{"id": "C71", "title": "A Newton power flow step is exact to first order", "statement": "For any bus admittance matrix, injections and voltages with positive magnitudes, the residual of newtonpf holds the active mismatches at the PV and PQ buses followed by the reactive mismatches at the PQ buses, the matrix it assembles holds the partial derivatives of exactly these mismatches in the voltage angles at the PV and PQ buses and the magnitudes at the PQ buses, in that order, and one iteration with an exact linear solve changes only these unknowns, by amounts for which the first-order change of every mismatch cancels the mismatch; the angles and magnitudes carried into the next iteration describe the same voltages.", "quantifier": "all square admittance matrices, injection vectors, disjoint PV and PQ sets, voltage states with positive magnitudes and linear solves that satisfy the system", "why_tests_cant": "A Jacobian with a misplaced block or an update that moves the wrong slice still converges on easy cases (more slowly) so tests that compare converged results pass; that the step cancels every mismatch to first order is a statement about derivatives at every state of every network.", "anchors": ["pypower/newtonpf.py:newtonpf", "pypower/dSbus_dV.py:dSbus_dV"]}
{"id": "C72", "title": "The continuation parameterization equation and its Jacobian row agree", "statement": "For voltages with positive magnitudes and angles strictly between -pi and pi, cpf_p returns the natural (|lam - lam0| - step), arc length (squared distance of angles at PV and PQ buses, magnitudes at PQ buses and lambda, minus step squared) or pseudo arc length (tangent times displacement minus step) equation, and cpf_p_jac returns its partial derivatives in exactly these unknowns and in lambda, in the order of the Newton system; the one exception is the lambda entry of the first two parameterizations at lam = lam0, where it returns 1.", "quantifier": "all bus counts, disjoint PV and PQ sets, steps, tangents, states and previous states with principal angles, the three parameterizations", "why_tests_cant": "a wrong sign, factor or slice in the parameterization row only slows the corrector down or bends the trace; the shipped test checks solved points, and derivatives at every state are outside the reach of tests", "anchors": ["pypower/cpf_p.py:cpf_p", "pypower/cpf_p_jac.py:cpf_p_jac"]}
{"id": "C73", "title": "The continuation corrector's convergence flag and step are exact", "statement": "When cpf_corrector returns, its flag is true exactly if the returned voltages satisfy the power balance equations of the injections Sbus + lam*Sxfr at every PV and PQ bus (reactive at PQ) and the parameterization equation, all within the tolerance; it used at most max_it iterations, exactly max_it if it failed; buses outside the PV and PQ lists keep their voltage and buses outside the PQ list their magnitude. One iteration with an exact linear solve moves only these unknowns and lambda, by amounts for which the first-order change of every balance equation (and of the parameterization equation, unless lam = lam0 in the first two parameterizations) cancels its residual.", "quantifier": "all admittance matrices, injections, transfers, starting points, parameterizations, tolerances, iteration limits and linear solvers (for the step: real states with positive magnitudes and principal angles, and solves that satisfy the system)", "why_tests_cant": "the flag is tested on one or two converging cases; a test never sees a false flag on a solved point or the reverse; a step that is not exact to first order still converges, more slowly", "anchors": ["pypower/cpf_corrector.py:cpf_corrector", "pypower/cpf_p.py:cpf_p", "pypower/cpf_p_jac.py:cpf_p_jac"]}
{"id": "C74", "title": "The continuation predictor moves along the unit tangent of the solution curve", "statement": "If the linear solve succeeds, cpf_predictor returns a tangent vector of Euclidean length one that annihilates the first-order change of every power balance equation in the unknown angles, magnitudes and lambda, along which the parameterization function increases (lambda itself on the first step), and the predicted point is the current point moved by step times this vector at the angles of PV and PQ buses, the magnitudes of PQ buses and lambda, all other coordinates unchanged.", "quantifier": "all square admittance matrices, transfers, disjoint PV and PQ sets, states with positive magnitudes and principal angles, steps, previous tangents, parameterizations and linear solves that satisfy the system", "why_tests_cant": "tangency is an identity between derivatives at every state of every network; a predictor that is slightly off the tangent is repaired by the corrector, so the traced points tests compare are the same", "anchors": ["pypower/cpf_predictor.py:cpf_predictor", "pypower/cpf_p_jac.py:cpf_p_jac", "pypower/dSbus_dV.py:dSbus_dV"]}
{"id": "C75", "title": "The continuation curve consists of solved power flows, spaced by the step, ending where it should", "statement": "A successful runcpf lists the base solution followed by points each of which solves the power flow equations at its own lambda within the tolerance, with the base solution's reference voltages and PV magnitudes. The run ends at the first point where the stopping condition holds (lambda fell, or |lambda| < 1e-8, or the target is met), which is the point reported, and max_lam is the largest lambda met. Without step adaptation neighbouring points are one step apart in the sense of the parameterization until the last, shortened step, which aims at the target.", "quantifier": "all pairs of base and target cases, options, fuel, linear solvers and norm functions", "why_tests_cant": "a test compares end points of one curve with stored numbers; it cannot cover every intermediate point of every curve", "anchors": ["pypower/runcpf.py:runcpf", "pypower/cpf_corrector.py:cpf_corrector", "pypower/cpf_predictor.py:cpf_predictor", "pypower/cpf_p.py:cpf_p"]}
{"id": "C76", "title": "The tables of a continuation run describe its last point", "statement": "In the tables runcpf returns, loads and generator outputs are base + lam*(target - base) (except the unit balancing each reference bus), other entries are the target's, voltages are those of the last point. If base and target differ only in powers, then after a successful run active power balances in these tables (generation less load, shunt and reported branch flows) exactly at reference buses and within tol*baseMVA elsewhere, and reactive power balances exactly up to the EPS term where units are in service and within tol*baseMVA elsewhere.", "quantifier": "all base and target cases with the same network, all options, linear solvers and norms", "why_tests_cant": "tests compare a few voltages; the balance of the interpolated tables involves both cases, lambda and the solution at once", "anchors": ["pypower/runcpf.py:runcpf", "pypower/pfsoln.py:pfsoln"]}
{"id": "C77", "title": "Identical base and target cases return the base solution", "statement": "When base and target inject the same powers, runcpf returns the base solution as its only point. (False: with more than one bus writing the single point back raises ValueError.)", "quantifier": "all cases whose base and target injections are equal", "why_tests_cant": "the branch for equal cases is reached only by degenerate input no test uses", "anchors": ["pypower/runcpf.py:runcpf"]}
{"id": "C78", "title": "A target lambda on the curve is reached whatever the step", "statement": "A run asked to stop at a lambda that lies on the curve reaches it. (False: when the first step goes beyond the target the new step is negative while the parameterization measures a magnitude, so the corrector fails.)", "quantifier": "all targets, step sizes and cases", "why_tests_cant": "needs a step larger than the target; default steps are small", "anchors": ["pypower/runcpf.py:runcpf", "pypower/cpf_p.py:cpf_p"]}
{"id": "C79", "title": "A successful continuation starts from a solved base case", "statement": "If runcpf reports success, its first point solves the base case within the tolerance. (False: the flag of the base power flow is overwritten by the first corrector.)", "quantifier": "all cases and options", "why_tests_cant": "needs a base power flow that fails while later points converge", "anchors": ["pypower/runcpf.py:runcpf", "pypower/newtonpf.py:newtonpf"]}
{"id": "C80", "title": "A whole DC power flow run balances power in the caller's own bus numbers", "statement": "If runpf with PF_DC succeeds on a well-formed case in external form (any bus numbers, isolated buses, out-of-service elements, branch tables without flow columns), then in the returned tables, at every bus that is not isolated, the generation of all units at that bus number less PD and GS equals the sum of the reported PF of branches leaving it and PT of branches entering it; units out of service (by status or because their bus is isolated) report PG = QG = 0, branches out of service report zero flows, rows at isolated buses are untouched, row order is the caller's, and no column other than VM, VA / PG, QG / PF, QF, PT, QT changes.", "quantifier": "all well-formed cases, all exact linear solvers, all sorting orders allowed by argsort", "why_tests_cant": "the statement composes renumbering, solving and mapping back for every combination of numbering, status and isolation", "anchors": ["pypower/runpf.py:runpf", "pypower/ext2int.py:ext2int", "pypower/int2ext.py:int2ext", "pypower/dcpf.py:dcpf"]}
{"id": "C81", "title": "A successful AC power flow run balances power in the caller's own bus numbers", "statement": "If runpf with an AC algorithm returns success on a well-formed case in external form, then in the returned tables active power balances within tolerance times baseMVA (scaled by the voltage for the fast decoupled method) at every bus that is not isolated, reactive power balances within the same bound at buses without generator and exactly, up to the EPS share lost in dividing among units, at buses with one; the reported magnitude at PV and reference buses is the set-point of a unit in service there; and, successful or not, only result columns change, rows keep the caller's order, isolated rows are untouched and out-of-service elements report zero.", "quantifier": "all well-formed cases, algorithms NR, FDXB, FDBX, GS, tolerances and iteration limits", "why_tests_cant": "composes renumbering, an iterative solver and mapping back over all cases", "anchors": ["pypower/runpf.py:runpf", "pypower/ext2int.py:ext2int", "pypower/int2ext.py:int2ext", "pypower/pfsoln.py:pfsoln", "pypower/newtonpf.py:newtonpf", "pypower/fdpf.py:fdpf", "pypower/gausspf.py:gausspf"]}
{"id": "C82", "title": "Adaptive continuation steps follow the error rule and stay within their bounds", "statement": "In a successful runcpf with CPF_ADAPT_STEP and a positive CPF_ERROR_TOL, consecutive points are one step apart (in the chosen parameterization, to within the tolerance), where the first step is CPF_STEP and each next step is the previous one times tolerance over error, cut to CPF_STEP_MAX when the error is below the tolerance and raised to CPF_STEP_MIN otherwise; the error is the largest change made by the corrector to angles at PQ buses, magnitudes at PV and PQ buses, and lambda. The only exception is a last adaptive point from which the step aims exactly at the end of the run. If CPF_STEP lies between CPF_STEP_MIN >= 0 and CPF_STEP_MAX, all adaptive steps do.", "quantifier": "all base and target cases, options, oracles for the polar functions and the linear solver", "why_tests_cant": "bounds on every step of every run", "anchors": ["pypower/runcpf.py:runcpf", "pypower/cpf_p.py:cpf_p"]}
{"id": "C83", "title": "A whole DC optimal power flow run reports a feasible operating point in external numbering", "statement": "Whenever the DC optimal power flow of a well-formed case without user constraints and costs runs through, the reported case differs from the given one only in the result columns: bus angles and prices of buses in service, outputs and output multipliers of generators in service, flows and limit multipliers of branches in service; outputs, flows and active multipliers of equipment out of service are zero; isolated buses, costs and areas are as given. If the run reports success (positive base, consistent output and angle limits, bounds below the solver's infinity, costs piecewise-linear, linear or quadratic), then in the external tables every bus in service is balanced (generation minus load, shunt and branch flows), each output, each limited flow and each limited angle difference keeps its limit, each flow satisfies the DC branch equation for the reported end angles with the opposite flow at the other end, reference angles are as given, and the reported cost is that of the reported outputs, all up to the tolerance of the solver. Reported prices and multipliers are those of the rows and bounds of the solved problem that concern the same bus, generator or branch.", "quantifier": "every well-formed case with any bus numbers, generator order, isolated buses and out-of-service equipment; every linear solver, logarithm and argsort; any ordered field", "why_tests_cant": "Renumbering, sorting, filtering and restoring interact with formulation and reporting; a test compares a few cases with stored answers, whereas the statement holds for all cases and numbering patterns and for each reported cell.", "anchors": ["pypower/opf.py:opf", "pypower/opf_execute.py:opf_execute", "pypower/ext2int.py:ext2int", "pypower/int2ext.py:int2ext", "pypower/opf_setup.py:opf_setup", "pypower/dcopf_solver.py:dcopf_solver"]}
{"id": "C84", "title": "A branch without an angle limit reports no angle multiplier", "statement": "After a successful optimal power flow a branch in service without a limit on its angle difference reports zero as the multipliers of that limit.", "quantifier": "every well-formed case, whatever the multiplier columns held before", "why_tests_cant": "The columns are created with zeros on a first run; the old values only show when a case that already carries results is solved again after a change of limits.", "anchors": ["pypower/opf_execute.py:opf_execute", "pypower/opf.py:opf"]}
{"id": "C85", "title": "A whole AC optimal power flow run reports a feasible operating point in external numbering", "statement": "Whenever the AC optimal power flow of a well-formed case with one cost row per generator and without user constraints and costs runs through, the reported case differs from the given one only in the result columns of equipment in service (voltages and their prices, outputs, set points and their multipliers, flows and theirs); outputs, active multipliers and flows of equipment out of service are zero; isolated buses, costs and areas are as given. If the run reports success (positive base, consistent limits, bounds below the solver's infinity), then in the external tables active and reactive power are balanced at every bus in service, voltages, outputs, both edges of capability curves, limited flows (of apparent power, active power or current, as chosen) and limited angle differences keep their limits, dispatchable loads keep their power factor, the reported flows are those of the branch circuits for the reported voltages, reference angles are as given, the set point of a generator is the voltage of its bus, and the reported cost is that of the reported outputs, all up to the tolerance of the solver. The cost clause needs costs that are piecewise linear or polynomial and at least two generators in service whose costs need no cost variable. Reported prices and multipliers of buses and branches are those of the constraints and bounds of the solved problem that concern them.", "quantifier": "every well-formed case with any bus numbers, generator order, isolated buses and out-of-service equipment; every linear solver, logarithm, argsort, and functions sin, cos, atan2, norm and modulus; every map to the unit circle; any ordered field", "why_tests_cant": "The whole chain of renumbering, formulation, interior-point iterations and restoring is involved; tests compare a few cases with stored answers to some digits, whereas the statement covers every case, each reported cell and every numbering pattern.", "anchors": ["pypower/opf.py:opf", "pypower/opf_execute.py:opf_execute", "pypower/ext2int.py:ext2int", "pypower/int2ext.py:int2ext", "pypower/opf_setup.py:opf_setup", "pypower/pipsopf_solver.py:pipsopf_solver"]}
{"id": "C86", "title": "Capability curve prices are folded into the output multipliers of the same generator", "statement": "After a successful AC optimal power flow in which generators in service have capability curves that cut a corner of their box, the difference of the reported multipliers of the upper and the lower limit of each active and reactive output is the difference of the multipliers of the bounds of that variable plus the prices of the curve edges weighted with their coefficients for that variable; the reported multipliers are not negative and at most one of the two is not zero. The edges are the first rows of the problem, exactly one for each upper and each lower edge of a generator in service. Without any such edge the multipliers of the bounds are reported unchanged.", "quantifier": "every successful run of a well-formed case, every generator in service in external order, any capability curves, any solver", "why_tests_cant": "Sign conventions, per-unit scaling, offsets of the row blocks and the reordering of generators interact; a wrong generator or sign shows only when edges are binding, which standard test cases do not exercise.", "anchors": ["pypower/update_mupq.py:update_mupq", "pypower/opf_execute.py:opf_execute", "pypower/makeApq.py:makeApq", "pypower/opf.py:opf"]}
{"id": "C87", "title": "A converged AC optimal power flow delivers its result", "statement": "If the solver converges on the AC problem of a well-formed case, the run delivers a result.", "quantifier": "every well-formed case on which the solver converges", "why_tests_cant": "It fails exactly if capability curves of generators in service cut upper corners only or lower corners only, a pattern that is absent from test cases.", "anchors": ["pypower/update_mupq.py:update_mupq", "pypower/makeApq.py:makeApq", "pypower/opf_execute.py:opf_execute"]}
{"id": "C88", "title": "The branch table of a report shows the losses of the circuits", "statement": "In a report on AC results the branch table has one row per branch, in order, with the ends and flows of the branch table; the loss shown is base power times the squared current through the series impedance times that impedance for branches in service and zero for others, and the total is the sum of the rows. If the flows of the table are those of the circuits between the voltages of the bus table, the loss shown is what enters the branch at its two ends: active power exactly, reactive power up to what the charging of the branch produces.", "quantifier": "every AC report on tables with distinct bus numbers, every branch", "why_tests_cant": "The report is text for people; tests do not read it, and losses are recomputed from voltages instead of being taken from the flows.", "anchors": ["pypower/printpf.py:printpf"]}
{"id": "C89", "title": "The system summary of a report closes exactly as far as the buses do", "statement": "In a report on AC results generation, load (fixed and dispatchable), shunts, losses and charging of the system summary are the sums over the tables, and if the flows are those of the circuits, then generation less load plus shunt less losses (for reactive power: plus charging) equals the sum of what is left over at the buses; for a solved power flow it is zero.", "quantifier": "every AC report on tables with distinct bus numbers", "why_tests_cant": "Totals are printed with one or two digits and compared by nobody; the identity holds across recomputed losses and sums over masks.", "anchors": ["pypower/printpf.py:printpf"]}
{"id": "C90", "title": "The active power of each area closes exactly as far as its buses do", "statement": "In a report on AC results whose flows are those of the circuits, each row of the area summary satisfies: generation less load plus shunt less losses (tie lines count half) less net export equals the sum of what is left over at the buses of that area.", "quantifier": "every AC report, every row of the area summary", "why_tests_cant": "Needs many areas joined by many lines; tests have one area and do not read the text.", "anchors": ["pypower/printpf.py:printpf"]}
{"id": "C91", "title": "The reactive power of each area closes", "statement": "In a report on AC results whose flows are those of the circuits, each row of the area summary satisfies: generation less load plus shunt plus charging less losses less net export equals the sum of the reactive power left over at the buses of that area.", "quantifier": "every AC report, every row of the area summary", "why_tests_cant": "It fails by the charging at the area's end of its tie lines, which is counted both as charging and in the net export; test cases have one area.", "anchors": ["pypower/printpf.py:printpf"]}
{"id": "C92", "title": "Every area has one row and the rows add up to the system summary", "statement": "The area summary has exactly one row per area number of the bus table, and its counts, capacities, generation, load, shunts, losses and charging add up to those of the system summary; net exports add up to zero.", "quantifier": "every AC report on tables with distinct bus numbers", "why_tests_cant": "It fails exactly if the area with the lowest number has a single bus: then this area has no row and the next one has two. Test cases have many buses in area one.", "anchors": ["pypower/printpf.py:printpf"]}
{"id": "C93", "title": "The limits of generators and branches that are reached are listed", "statement": "In the constraint part of an AC report the active and the reactive limit of a generator in service are listed if and only if all are asked for or the output is within the tolerance of a limit or one of the two multipliers is not negligible; a branch is listed if and only if all are asked for or the loading of the kind that is limited, at one of its ends, is within the tolerance of a rating different from zero, or one of its multipliers is not negligible.", "quantifier": "every AC report of an optimal power flow, every generator and branch", "why_tests_cant": "The masks combine tolerances, signs and multipliers; tests do not read the text.", "anchors": ["pypower/printpf.py:printpf"]}
{"id": "C94", "title": "The voltage limits that are reached are listed", "statement": "With the setting for limits that are reached, a bus whose voltage is at a limit is listed in the constraint part of an AC report.", "quantifier": "every AC report of an optimal power flow with this setting", "why_tests_cant": "A precedence slip in the condition suppresses the table for every case; with the setting for all limits it appears.", "anchors": ["pypower/printpf.py:printpf"]}
{"id": "C95", "title": "Limits of dispatchable loads that are reached are listed", "statement": "If a dispatchable load in service is at a limit that is to be listed, the report lists it.", "quantifier": "every AC report of an optimal power flow", "why_tests_cant": "The formatting of the row raises a TypeError, so printing fails whenever a dispatchable load is at a limit; test cases have none or do not print.", "anchors": ["pypower/printpf.py:printpf"]}
{"id": "C96", "title": "Printing leaves the tables as they are", "statement": "After printing a report the bus, generator and branch tables of the caller are unchanged.", "quantifier": "every call", "why_tests_cant": "It holds for AC reports; for DC reports reactive load, shunt susceptance, reactive output and limits, resistance and charging of the caller's tables are set to zero.", "anchors": ["pypower/printpf.py:printpf"]}
{"id": "C97", "title": "The summary closes for solved cases with isolated buses", "statement": "If all buses in service are balanced and branches at isolated buses have flows of zero, as the power flow leaves them, the system summary closes.", "quantifier": "every AC report on the result of a power flow", "why_tests_cant": "Loads of isolated buses are counted and losses of branches to them are computed from old voltages; the test cases have no isolated buses.", "anchors": ["pypower/printpf.py:printpf"]}
{"id": "C98", "title": "The generator, load and bus tables show every unit once and add up", "statement": "In a report on AC results the generator table has exactly one row for every generator in service that is not a dispatchable load, with its number, bus, output (blank if zero) and, for an optimal power flow, the prices of its bus; the table of dispatchable loads has exactly one row for each of those in service, with the sign changed; the bus table has one row per bus with its voltage, the reference mark, the generation of its generators, its fixed plus dispatchable load and its prices. Totals are the sums of what the rows show (for buses if units name their bus exactly).", "quantifier": "every AC report on tables with distinct bus numbers, every unit and bus", "why_tests_cant": "The tables are text; masks over status and kind of unit are recomputed per row.", "anchors": ["pypower/printpf.py:printpf"]}
{"id": "C99", "title": "A DC optimal power flow with zonal reserves reports feasible reserves at their cost", "statement": "For a DC optimal power flow with zonal reserves, whatever the outcome, the tables change only where a run without reserves may change them, the reserve data come back as given and units out of service or in no zone have no reserves. On success the operating point meets balances, flow, angle and output limits; reserves of every unit in service and in a zone are at least zero and at most its ramp limit (if not zero), the quantity given for it and what its output leaves below its maximum; the reserves of every zone, weighted, reach its requirement; the cost of reserves is the sum of cost times reserves over these units, whether costs are listed for all units or those in zones only, and the objective is the cost of generation plus this cost. All limits hold up to the feasibility tolerance.", "quantifier": "every well-formed case and reserve data of matching sizes with ordered limits and ramp limits and quantities not negative, every linear solver", "why_tests_cant": "Tests compare one 30-bus case; that internal reordering of units, costs for some units only, idle units in zones and the last columns and rows of the problem are all taken consistently needs all cases.", "anchors": ["pypower/toggle_reserves.py:userfcn_reserves_ext2int", "pypower/toggle_reserves.py:userfcn_reserves_formulation", "pypower/toggle_reserves.py:userfcn_reserves_int2ext", "pypower/runopf_w_res.py:runopf_w_res"]}
