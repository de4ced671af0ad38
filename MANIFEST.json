{
 "claims": [
  {
   "property": "C01",
   "status": "proved",
   "theorems": [
    "C01_round_trip"
   ],
   "note": "Every well-formed case, every argsort. An empty areas table is dropped by the code (theorem says so)."
  },
  {
   "property": "C02",
   "status": "proved",
   "theorems": [
    "C02_internal_form",
    "C02_dangling_reference_refuted"
   ],
   "note": "Well-formedness includes that references exist; the refuted theorem shows a dangling reference is silently attached to the first bus."
  },
  {
   "property": "C03",
   "status": "proved",
   "theorems": [
    "C03_results_written_back"
   ],
   "note": ""
  },
  {
   "property": "C04",
   "status": "proved",
   "theorems": [
    "C04_ext2int_on_internal",
    "C04_int2ext_on_external",
    "C04_cycles_do_not_accumulate"
   ],
   "note": ""
  },
  {
   "property": "C05",
   "status": "proved",
   "theorems": [
    "C05_user_data"
   ],
   "note": "Dense data; dim=0 (rows)."
  },
  {
   "property": "C06",
   "status": "proved",
   "theorems": [
    "C06_run_in_registration_order",
    "C06_trace",
    "C06_remove_most_recent",
    "C06_add_remove",
    "C06_duplicates_rejected_refuted"
   ],
   "note": "Every registration history and callback behaviour (including raising). The refuted theorem records that allow_multiple=False does not reject duplicates."
  },
  {
   "property": "C07",
   "status": "proved",
   "theorems": [
    "C07_gen_columns",
    "C07_branch_columns",
    "C07_loadcase",
    "C07_version_field_ignored"
   ],
   "note": "column-by-column statement for all widths; closed under the global context"
  },
  {
   "property": "C08",
   "status": "proved",
   "theorems": [
    "C08_ranges",
    "C08_every_index_in_one_set",
    "C08_getN",
    "C08_getv",
    "C08_getv_named"
   ],
   "note": "Any sequence of calls accepted by the model with distinct names per kind; ranges, getN and getv (with defaults)."
  },
  {
   "property": "C09",
   "status": "proved",
   "theorems": [
    "C09_linear_constraints",
    "C09_no_constraints"
   ],
   "note": "Well-formed sets (declared over known, distinct variable sets, matching column counts). For sets declared over all variables, 'all' is the set of variables at assembly; see C45 for variables added later."
  },
  {
   "property": "C10",
   "status": "proved",
   "theorems": [
    "C10_total_cost",
    "C10_plain_costs",
    "C10_row_function",
    "C10_eval_params",
    "C10_sizes"
   ],
   "note": "C10_total_cost covers all cost sets but shows the optional parameters are dropped; C10_plain_costs is the property as stated; C10_eval_params: evaluation of any parameter set (with dd/rh/kk/mm, kk >= 0) is the documented function. See C44 for the optional parameters."
  },
  {
   "property": "C100",
   "status": "proved",
   "theorems": [
    "C100_prices"
   ],
   "note": "linear solver and sort are parameters; AC formulation with reserves is not modelled"
  },
  {
   "property": "C101",
   "status": "partial",
   "theorems": [
    "C101_partial",
    "C101_refuted"
   ],
   "note": "refuted: the code reports the sum of the prices; a unit in two zones with price 1 each gets 2; proved: the sum in general, the maximum for a unit in one zone"
  },
  {
   "property": "C102",
   "status": "proved",
   "theorems": [
    "C102_generator_price",
    "C102_congestion_price"
   ],
   "note": "linear solver and sort are parameters; no user constraints or costs"
  },
  {
   "property": "C103",
   "status": "proved",
   "theorems": [
    "C103_near_optimal"
   ],
   "note": "linear solver and sort are parameters; no user constraints or costs; segmented costs by their cost variables"
  },
  {
   "property": "C104",
   "status": "proved",
   "theorems": [
    "C104_case_forms",
    "C104_matrix_forms",
    "C104_other_counts",
    "C104_accepted"
   ],
   "note": "arguments are tokens with shapes; loader of case files and default options are parameters"
  },
  {
   "property": "C105",
   "status": "partial",
   "theorems": [
    "C105_reaches_partial",
    "C105_reaches_refuted",
    "C105_costs_refuted"
   ],
   "note": "holds when constraints come with nonempty lower bounds and costs with nonempty weights; refuted otherwise"
  },
  {
   "property": "C106",
   "status": "partial",
   "theorems": [
    "C106_plain_call_partial",
    "C106_leftover_refuted"
   ],
   "note": "holds for calls with a case and options only (and, with costs in the case, a matrix H); refuted for calls with constraints"
  },
  {
   "property": "C107",
   "status": "partial",
   "theorems": [
    "C107_file_name_partial",
    "C107_file_name_refuted"
   ],
   "note": "the parsed arguments agree for all calls; refuted for the fields handed on"
  },
  {
   "property": "C108",
   "status": "proved",
   "theorems": [
    "C108_well_formed",
    "C108_limits",
    "C108_near_optimal"
   ],
   "note": "tables transcribed by tools/cases.py as exact decimals, not binary floats; the near-optimality is that of C103; any ordered field with pi above one"
  },
  {
   "property": "C109",
   "status": "proved",
   "theorems": [
    "C109_unique",
    "C109_solves",
    "C109_run",
    "C109_bundled"
   ],
   "note": "linear solver exact where it returns; exact arithmetic; each reference bus has a generator in service"
  },
  {
   "property": "C11",
   "status": "proved",
   "theorems": [
    "C11_value",
    "C11_derivatives"
   ],
   "note": "Tables of polynomial rows with mixed NCOST >= 1 and any padding; derivative output of every order, as derivative of a real function (real-number axioms of the standard library)."
  },
  {
   "property": "C110",
   "status": "partial",
   "theorems": [
    "C110_in_force_partial",
    "C110_in_force_refuted",
    "C110_dc_runs",
    "C110_base_only"
   ],
   "note": "refuted for the options of the Gurobi table, which is not among the tables that make the defaults; proved as an equivalence for all other names. Names are not checked: a lower-case name is accepted and has no effect (example)"
  },
  {
   "property": "C111",
   "status": "partial",
   "theorems": [
    "C111_pips_partial",
    "C111_unknown",
    "C111_others_fail",
    "C111_default_refuted"
   ],
   "note": "proved for PIPS and for unknown codes; refuted for the others: no options and no installed packages make codes 400, 500, 600, 700 reach a solver, and the default run fails wherever CPLEX, MOSEK or Gurobi can be imported"
  },
  {
   "property": "C112",
   "status": "partial",
   "theorems": [
    "C112_codes_partial",
    "C112_settings",
    "C112_unknown_gurobi",
    "C112_codes_refuted"
   ],
   "note": "codes 200 to 700 proved; refuted for all other non-zero codes, which call Gurobi"
  },
  {
   "property": "C113",
   "status": "partial",
   "theorems": [
    "C113_pips_partial",
    "C113_ipopt",
    "C113_other_codes",
    "C113_codes_kept",
    "C113_codes_refuted"
   ],
   "note": "0, 560, 565, 580 proved; refuted for the codes listed in ppoption.py (500, 540, 545) and the old codes (100 to 260)"
  },
  {
   "property": "C114",
   "status": "proved",
   "theorems": [
    "C114_same_results",
    "C114_rewritten"
   ],
   "note": "exact arithmetic; linear solver exact where it returns; both cases well-formed"
  },
  {
   "property": "C115",
   "status": "proved",
   "theorems": [
    "C115_affine"
   ],
   "note": "exact arithmetic; linear solver exact where it returns; all three cases well-formed"
  },
  {
   "property": "C116",
   "status": "partial",
   "theorems": [
    "C116_cut_partial",
    "C116_same_partial",
    "C116_refuted"
   ],
   "note": "refuted: numpy keeps a table without decimal points as integers and every result stored in it loses its fraction; proved: the report is the exact one without the fractions (flows are not affected), and equals it exactly if the exact results are whole"
  },
  {
   "property": "C117",
   "status": "partial",
   "theorems": [
    "C117_saved_partial",
    "C117_exact_partial",
    "C117_wide_costs_refuted",
    "C117_widths_refuted",
    "C117_infinite_refuted",
    "C117_name_refuted"
   ],
   "note": "proved for finite rectangular tables of the usual widths whose cost rows have no unused columns and a file name that is an identifier: every cell is the rounded one, and numbers with few digits come back unchanged; refuted: cost tables padded beyond the largest count, old generator tables and branch tables with 19 or 20 columns are never saved, infinite limits and names that are not identifiers give files that cannot be loaded"
  },
  {
   "property": "C118",
   "status": "partial",
   "theorems": [
    "C118_matrices_refuted",
    "C118_variables_refuted",
    "C118_lower_refuted",
    "C118_version1"
   ],
   "note": "refuted throughout: matrices of constraints or costs raise an exception whether sparse or dense, two or more user variables raise TypeError, a lower bound for a single variable gives a file that is not valid Python, and the old format raises NotImplementedError"
  },
  {
   "property": "C119",
   "status": "partial",
   "theorems": [
    "C119_values_partial",
    "C119_text_refuted",
    "C119_tolerance_refuted",
    "C119_dc_refuted"
   ],
   "note": "proved for options whose default is a truth value or a number and texts of that type; refuted: the linear solver of Newton's method cannot be named (TypeError), a feasibility tolerance must be an integer, and the optimal power flow command has no way to ask for the DC formulation"
  },
  {
   "property": "C12",
   "status": "proved",
   "theorems": [
    "C12_totcost",
    "C12_one_value",
    "C12_breakpoint",
    "C12_interpolation",
    "C12_convex_max"
   ],
   "note": "Mixed tables; breakpoints strictly increasing, at least two."
  },
  {
   "property": "C120",
   "status": "proved",
   "theorems": [
    "C120_again",
    "C120_rerun"
   ],
   "note": "exact arithmetic; generation at each bus, not per generator"
  },
  {
   "property": "C121",
   "status": "proved",
   "theorems": [
    "C121_lossless"
   ],
   "note": "exact arithmetic; elements out of service report zero and are part of the sum"
  },
  {
   "property": "C122",
   "status": "partial",
   "theorems": [
    "C122_fails_refuted",
    "C122_floats_refuted",
    "C122_costs_lost_refuted",
    "C122_empty_partial"
   ],
   "note": "holds for tables without rows only; every call on a table with a row fails, with a TypeError if limits are floats, and the costs of the caller are replaced by zeros first"
  },
  {
   "property": "C123",
   "status": "proved",
   "theorems": [
    "C123_cplex",
    "C123_gurobi",
    "C123_ipopt",
    "C123_mosek",
    "C123_opf"
   ],
   "note": "calls with separate arguments; types and sizes of matrices are modelled, not entries"
  },
  {
   "property": "C124",
   "status": "partial",
   "theorems": [
    "C124_column_major_partial",
    "C124_row_major_partial",
    "C124_different",
    "C124_last_cost",
    "C124_beyond_refuted"
   ],
   "note": "proved for subscripts of the table, also counted from the end; refuted outside: they start again at the first column"
  },
  {
   "property": "C125",
   "status": "partial",
   "theorems": [
    "C125_jacobian_partial",
    "C125_unlimited_refuted",
    "C125_hessian_partial",
    "C125_hessian_refuted"
   ],
   "note": "proved for the Jacobian with at least one limited branch, and for the Hessian without user costs if costs that are curved at the point are curved at the start; refuted without limited branches (AttributeError) and for the Hessian in general (places of cost terms that vanish at the start are missing)"
  },
  {
   "property": "C126",
   "status": "proved",
   "theorems": [
    "C126_feasible",
    "C126_gradients"
   ],
   "note": ""
  },
  {
   "property": "C127",
   "status": "proved",
   "theorems": [
    "C127_multipliers",
    "C127_pimul"
   ],
   "note": ""
  },
  {
   "property": "C128",
   "status": "proved",
   "theorems": [
    "C128_defined",
    "C128_rows",
    "C128_all",
    "C128_setup"
   ],
   "note": ""
  },
  {
   "property": "C129",
   "status": "partial",
   "theorems": [
    "C129_found_partial",
    "C129_kept_partial",
    "C129_defined_partial",
    "C129_foreign_partial",
    "C129_refuted"
   ],
   "note": "Refuted: a second field below the same name adds a stray empty dict at the top, and a field of three names raises KeyError if the first is there but the second is not. Proved: exactly which calls return, and that those store the value and lose none."
  },
  {
   "property": "C13",
   "status": "proved",
   "theorems": [
    "C13_modcost",
    "C13_row_by_row",
    "C13_unknown"
   ],
   "note": "SCALE_X needs a > 0 (see C46 for other factors)."
  },
  {
   "property": "C130",
   "status": "proved",
   "theorems": [
    "C130_lists",
    "C130_codes"
   ],
   "note": "Reading a file is an oracle that gives an error code or a dict; functions in case files that return tuples are not modelled."
  },
  {
   "property": "C14",
   "status": "proved",
   "theorems": [
    "C14_polyshift"
   ],
   "note": "Every coefficient list and shift."
  },
  {
   "property": "C15",
   "status": "proved",
   "theorems": [
    "C15_partition",
    "C15_no_generator",
    "C15_members",
    "C15_error"
   ],
   "note": "bustypes; any table over any field with comparisons. Success condition stated exactly for tables with enough columns and in-range bus numbers."
  },
  {
   "property": "C16",
   "status": "proved",
   "theorems": [
    "C16_defined",
    "C16_branch_flows",
    "C16_kirchhoff",
    "C16_out_of_service"
   ],
   "note": "makeBdc, exact arithmetic; zero reactance (inf/nan) excluded."
  },
  {
   "property": "C17",
   "status": "proved",
   "theorems": [
    "C17_balance",
    "C17_buses",
    "C17_branches",
    "C17_generators"
   ],
   "note": "DC branch of runpf on internal tables with bus types 1-3; sparse solver is an oracle assumed to return only exact solutions."
  },
  {
   "property": "C18",
   "status": "proved",
   "theorems": [
    "C18_transfer",
    "C18_flows",
    "C18_default",
    "C18_slack_column",
    "C18_distributed",
    "C18_weighted_columns",
    "C18_matrix"
   ],
   "note": "Over any field; the dense solver is an oracle that only returns exact solutions."
  },
  {
   "property": "C19",
   "status": "proved",
   "theorems": [
    "C19_post_outage",
    "C19_diagonal",
    "C19_defined"
   ],
   "note": "The outage table has BR_STATUS of branch o set to 0; a zero denominator (islanding outage) is None."
  },
  {
   "property": "C20",
   "status": "proved",
   "theorems": [
    "C20_defined",
    "C20_branch_circuit",
    "C20_circuit_determines",
    "C20_out_of_service",
    "C20_bus_currents"
   ],
   "note": "exp(1j a) is a parameter of unit modulus; over any ordered field (rationals, reals)."
  },
  {
   "property": "C21",
   "status": "proved",
   "theorems": [
    "C21_newton",
    "C21_gauss",
    "C21_fast",
    "C21_no_unknowns"
   ],
   "note": "Linear solvers are arbitrary; exp/abs/angle are parameters, constrained by polar_ok where the unchanged-voltage parts need it."
  },
  {
   "property": "C22",
   "status": "proved",
   "theorems": [
    "C22_buses",
    "C22_reactive",
    "C22_shares",
    "C22_active",
    "C22_generators",
    "C22_branches"
   ],
   "note": "Finite reactive limits (infinite ones give NaN in the code and are outside the model)."
  },
  {
   "property": "C23",
   "status": "proved",
   "theorems": [
    "C23_bus_injections"
   ],
   "note": "Over the reals with abs = sqrt(re^2+im^2); sparse branch of the code; every entry is the derivative and the call is defined."
  },
  {
   "property": "C24",
   "status": "proved",
   "theorems": [
    "C24_flows",
    "C24_currents",
    "C24_squared"
   ],
   "note": "Over the reals; dAbr_dV stated for any quantities whose values and first derivatives are supplied."
  },
  {
   "property": "C25",
   "status": "proved",
   "theorems": [
    "C25_bus_injections",
    "C25_branch_flows",
    "C25_branch_currents"
   ],
   "note": "Second partials as derivative of the derivative function on all states with positive magnitudes; all four blocks, row index first."
  },
  {
   "property": "C26",
   "status": "proved",
   "theorems": [
    "C26_feasible_set",
    "C26_total"
   ],
   "note": "Nonlinear, linear and bound constraints together; ordered bounds of the right length."
  },
  {
   "property": "C27",
   "status": "proved",
   "theorems": [
    "C27_interior",
    "C27_terminates",
    "C27_step_control"
   ],
   "note": "Arbitrary callbacks and linear solver (NaNs, exceptions)."
  },
  {
   "property": "C28",
   "status": "proved",
   "theorems": [
    "C28_success",
    "C28_failure",
    "C28_not_converged"
   ],
   "note": "Exact arithmetic over any ordered field."
  },
  {
   "property": "C29",
   "status": "proved",
   "theorems": [
    "C29_multipliers",
    "C29_stationary",
    "C29_absent_bounds"
   ],
   "note": "Holds for every run; together with the stationarity of the working multipliers."
  },
  {
   "property": "C30",
   "status": "proved",
   "theorems": [
    "C30_objective",
    "C30_gradient",
    "C30_reported",
    "C30_hessian"
   ],
   "note": "objective, gradient and reported cost; user cost symmetric and unshifted (C54), polynomial costs linear or quadratic (C55)"
  },
  {
   "property": "C31",
   "status": "proved",
   "theorems": [
    "C31_segments",
    "C31_convex",
    "C31_totcost",
    "C31_accepts"
   ],
   "note": "Over any ordered field; C31_totcost links the rows to the totcost model over the rationals."
  },
  {
   "property": "C32",
   "status": "proved",
   "theorems": [
    "C32_angles",
    "C32_loads",
    "C32_capability",
    "C32_no_curve"
   ],
   "note": "sin, cos, arctan2 and the norm are parameters with the stated properties; the real functions are shown to have them (C32_trig, C32_norm). Capability curves: trapezoid data (the case for which hasPQcap prints no warning), points within the box of P and Q limits. A load with both reactive limits nonzero is held at Q = 0 (const_pf states that)."
  },
  {
   "property": "C33",
   "status": "proved",
   "theorems": [
    "C33_constraints",
    "C33_limited_branches",
    "C33_report",
    "C33_balance_rows",
    "C33_solution",
    "C33_start",
    "C33_options"
   ],
   "note": "exact equivalence of the assembled problem with the intended one; tolerance statement for successful runs; reported tables"
  },
  {
   "property": "C34",
   "status": "proved",
   "theorems": [
    "C34_value",
    "C34_gradient"
   ],
   "note": "value over any ordered field, gradient over the reals with derivable_pt_lim; hypotheses: fitting table shapes, a polynomial cost row other than the first (see C63), N with a nonzero entry or no rows"
  },
  {
   "property": "C35",
   "status": "proved",
   "theorems": [
    "C35_total",
    "C35_scale",
    "C35_impossible"
   ],
   "note": "Parameter bool_neg: whether the sparse library negates boolean matrices; the theorem holds for both. Loads at unlisted buses excluded by 'placed'; for which = other letter the code scales both kinds."
  },
  {
   "property": "C36",
   "status": "proved",
   "theorems": [
    "C36_descent",
    "C36_terminates",
    "C36_deterministic",
    "C36_units",
    "C36_off_report"
   ],
   "note": "The OPF (ext2int, setup, solver, int2ext) is an oracle; the zeroing of out-of-service generators in opf.py is modelled."
  },
  {
   "property": "C37",
   "status": "proved",
   "theorems": [
    "C37_on_adds_five",
    "C37_off_restores",
    "C37_on_off",
    "C37_bad_input"
   ],
   "note": "Any existing registrations; later registrations by others survive."
  },
  {
   "property": "C38",
   "status": "proved",
   "theorems": [
    "C38_lines",
    "C38_bus_types",
    "C38_costs",
    "C38_loss",
    "C38_write_back",
    "C38_reported"
   ],
   "note": "Statements hold for every run of the three callbacks that returns a value, over any ordered field; whether float index arrays are accepted is a library parameter. Line costs never finish (see C68)."
  },
  {
   "property": "C39",
   "status": "proved",
   "theorems": [
    "C39_constraint",
    "C39_reported",
    "C39_map"
   ],
   "note": "Over any ordered field with positive baseMVA; flows are those of the DC branch equation on the internal branch table."
  },
  {
   "property": "C40",
   "status": "proved",
   "theorems": [
    "C40_same",
    "C40_within",
    "C40_tables"
   ],
   "note": "float tables; lines 219-288 unreachable because the infeasibility test raises first"
  },
  {
   "property": "C41",
   "status": "partial",
   "theorems": [
    "C05_sparse_matrix_refuted"
   ],
   "note": "Refuted for sparse matrices: the converted matrix is discarded. Dense columns are covered by C05_user_data applied to each row."
  },
  {
   "property": "C42",
   "status": "partial",
   "theorems": [
    "C42_flows_shifted_partial",
    "C42_branch_flows_refuted",
    "C42_branch_multipliers_refuted",
    "C42_gen_multiplier_refuted"
   ],
   "note": "false for the code: three concrete counterexamples, and the shift that actually happens proved for every solved table"
  },
  {
   "property": "C43",
   "status": "proved",
   "theorems": [
    "C43_dict_outcome",
    "C43_documented_codes_refuted"
   ],
   "note": "exact characterisation of success; the documented exit codes are refuted (UnboundLocalError)"
  },
  {
   "property": "C44",
   "status": "partial",
   "theorems": [
    "C44_optional_parameters_refuted",
    "C44_queries_independent_refuted",
    "C44_first_named_query_partial"
   ],
   "note": "Refuted: dd/rh/kk/mm are stored under the literal key 'name' and ignored, and a named query truncates the stored parameters. Partial: the first named query gives the set's own cost without its optional parameters."
  },
  {
   "property": "C45",
   "status": "partial",
   "theorems": [
    "C45_all_variables_refuted",
    "C45_named_sets_partial"
   ],
   "note": "Refuted for sets declared without variable sets (the list of all sets is shared by reference, assembly then fails). Proved for sets declared over named variable sets."
  },
  {
   "property": "C46",
   "status": "partial",
   "theorems": [
    "C46_scale_x_negative_refuted",
    "C46_scale_x_polynomial_partial"
   ],
   "note": "Refuted for piecewise-linear rows with a negative factor (breakpoints end up in decreasing order); proved for polynomial rows and every non-zero factor."
  },
  {
   "property": "C47",
   "status": "proved",
   "theorems": [
    "C47_bprime_xb",
    "C47_bdoubleprime",
    "C47_bprime_is_dc"
   ],
   "note": "Needs exp(0)=1 of the exponential parameter."
  },
  {
   "property": "C48",
   "status": "proved",
   "theorems": [
    "C48_squared_flows",
    "C48_squared_currents",
    "C48_squared_active"
   ],
   "note": "First derivatives and values enter as hypotheses discharged by the C24 theorems; connection matrix picks one bus per branch."
  },
  {
   "property": "C49",
   "status": "proved",
   "theorems": [
    "C49_active_balance",
    "C49_reactive_balance"
   ],
   "note": "Internal tables; bus types 1-3; reactive-limit enforcement off."
  },
  {
   "property": "C50",
   "status": "proved",
   "theorems": [
    "C50_magnitude",
    "C50_reference_angle"
   ],
   "note": "Internal tables; bus types 1-3; reactive-limit enforcement off."
  },
  {
   "property": "C51",
   "status": "proved",
   "theorems": [
    "C51_newton_direction",
    "C51_step"
   ],
   "note": "The search direction is the exact Newton step, and the next state follows it with the primal and dual step lengths of the fraction-to-boundary rule."
  },
  {
   "property": "C52",
   "status": "partial",
   "theorems": [
    "C52_fixed_at_huge_refuted",
    "C52_nonnegative_partial"
   ],
   "note": "Refuted: a variable fixed at 1e10 is both an equality and a one-sided row, and pips.py:598 overwrites the equality's lower multiplier. Non-negativity still holds."
  },
  {
   "property": "C53",
   "status": "partial",
   "theorems": [
    "C53_reactive_refuted",
    "C53_first_reactive_partial",
    "C53_shifted_partial"
   ],
   "note": "Refuted: every reactive piecewise-linear cost after the first generator's is tied to the reactive output of the generator before. Right when no such cost exists."
  },
  {
   "property": "C54",
   "status": "partial",
   "theorems": [
    "C54_shifted_partial",
    "C54_shifted_refuted"
   ],
   "note": "refuted: the constant term omits Cw'(m rh); the exact defect is proved"
  },
  {
   "property": "C55",
   "status": "partial",
   "theorems": [
    "C55_orders_partial",
    "C55_orders_refuted"
   ],
   "note": "refuted: constants and orders above two count as zero; the objective with those counted as nothing is proved"
  },
  {
   "property": "C56",
   "status": "proved",
   "theorems": [
    "C56_near_optimal"
   ],
   "note": "p_gh = None; linear solver and logarithm arbitrary; norms given by a relation"
  },
  {
   "property": "C57",
   "status": "proved",
   "theorems": [
    "C57_step",
    "C57_run",
    "C57_start"
   ],
   "note": "exact linear solver as hypothesis sparse_exact"
  },
  {
   "property": "C58",
   "status": "proved",
   "theorems": [
    "C58_near_optimal"
   ],
   "note": "Model Model/DcOpf.v, Model/Pips.v; the linear solver and ln are oracles. Rounding is not modelled (ordered field)."
  },
  {
   "property": "C59",
   "status": "proved",
   "theorems": [
    "C59_generator_price",
    "C59_congestion_price"
   ],
   "note": "Stated for cases without user constraints or user costs; segmented costs enter through their cost variables and are excluded from the generator condition."
  },
  {
   "property": "C60",
   "status": "proved",
   "theorems": [
    "C60_values",
    "C60_derivatives"
   ],
   "note": "Values over any field and first derivatives over the reals, for all three flow-limit modes."
  },
  {
   "property": "C61",
   "status": "proved",
   "theorems": [
    "C61_hessian"
   ],
   "note": "Over the reals with stdlib derivable_pt_lim; loads, generator status and user costs arbitrary."
  },
  {
   "property": "C62",
   "status": "proved",
   "theorems": [
    "C62_constraints",
    "C62_start",
    "C62_options",
    "C62_report",
    "C62_cost",
    "C62_solution"
   ],
   "note": "AC branch of opf_setup and pipsopf_solver over any ordered field; sin, cos, atan2, norm, exp(j.), abs and the linear solver are arbitrary functions. C62_cost needs a polynomial cost in a row other than the first (see C63)."
  },
  {
   "property": "C63",
   "status": "partial",
   "theorems": [
    "C63_value_partial",
    "C63_piecewise_partial",
    "C63_value_refuted"
   ],
   "note": "any(ipol) tests row numbers, so a single polynomial row 0 is skipped; the actual value is proved in C63_value_partial"
  },
  {
   "property": "C64",
   "status": "partial",
   "theorems": [
    "C64_returns_refuted",
    "C64_reactive_partial",
    "C64_unlimited_partial",
    "C64_piecewise_partial"
   ],
   "note": "Refuted; the partial theorems show that each of the three cases always raises."
  },
  {
   "property": "C65",
   "status": "proved",
   "theorems": [
    "C65_stationary",
    "C65_generator_price"
   ],
   "note": "Derivatives are stdlib derivable_pt_lim of independently stated cost, balance and flow functions; cost_shape, symmetric H and off-edge points are required for the user cost, and positive magnitudes and in-service generators as in C60. The bound is stated with costs scaled by 1/10000, as the solver does."
  },
  {
   "property": "C66",
   "status": "partial",
   "theorems": [
    "C66_refuted",
    "C66_total_partial",
    "C66_scale_partial",
    "C66_default_zone_partial"
   ],
   "note": "Refuted as stated; the partial theorems say exactly which calls can return."
  },
  {
   "property": "C67",
   "status": "partial",
   "theorems": [
    "C67_refuted",
    "C67_failed_start_refuted",
    "C67_first_phase_partial"
   ],
   "note": "Refuted as stated; the partial theorem says when uopf can return."
  },
  {
   "property": "C68",
   "status": "partial",
   "theorems": [
    "C68_refuted",
    "C68_float_index",
    "C68_line_costs",
    "C68_out_of_service",
    "C68_width_24",
    "C68_solved_partial"
   ],
   "note": "Refuted: float bus numbers as index raise IndexError with pinned NumPy for every table, line costs raise TypeError, and a line out of service cannot be converted back from a solved case (ValueError). Proved: with all lines in service a solved case is always written back."
  },
  {
   "property": "C69",
   "status": "partial",
   "theorems": [
    "C69_refuted",
    "C69_map_partial",
    "C69_flow_partial",
    "C69_float_map",
    "C69_rows_partial"
   ],
   "note": "Refuted: the first in-service branch is dropped from its interface, the saved map is overwritten in place, limits are taken by row instead of by interface number, and a float map raises IndexError. The partial theorems say what map comes back and when the limited flow is the right one."
  },
  {
   "property": "C70",
   "status": "partial",
   "theorems": [
    "C70_solved_partial",
    "C70_violation",
    "C70_refuted"
   ],
   "note": "refuted: any violation raises (IndexError with the pinned NumPy, TypeError otherwise); enforcement completes exactly when the plain solution meets every limit"
  },
  {
   "property": "C71",
   "status": "proved",
   "theorems": [
    "C71_residual",
    "C71_jacobian",
    "C71_step",
    "C71_restart"
   ],
   "note": "Over the reals with exact arithmetic; the linear solve is an oracle required to solve the assembled system; derivatives are stdlib derivable_pt_lim along each coordinate."
  },
  {
   "property": "C72",
   "status": "proved",
   "theorems": [
    "C72_value",
    "C72_row"
   ],
   "note": "Over the reals; angle function assumed correct on (-pi, pi) and shown to exist (angle_R). The derivative in lambda excludes lam = lam0 for the first two parameterizations, where the code's 1 is a convention (recorded in the theorem)."
  },
  {
   "property": "C73",
   "status": "proved",
   "theorems": [
    "C73_corrector",
    "C73_residual",
    "C73_step"
   ],
   "note": "Flag, iteration count and untouched voltages for any solver; polar_ok (proved for the reals) is needed only for the untouched voltages. The first-order exactness of one step is over the reals with a solve that satisfies the system; excluded are par 2 with a single unknown (the code raises) and empty unknowns."
  },
  {
   "property": "C74",
   "status": "proved",
   "theorems": [
    "C74_predictor"
   ],
   "note": "Over the reals, linear solve an oracle required to solve the assembled system, norm the Euclidean norm; excluded are par 2 with a single unknown (the code raises) and empty unknowns."
  },
  {
   "property": "C75",
   "status": "proved",
   "theorems": [
    "C75_points",
    "C75_end",
    "C75_spacing",
    "C75_last_step"
   ],
   "note": "for runs that return within the given fuel (the code's loop has no bound); linear solver and norm are arbitrary functions; spacing is stated without step adaptation"
  },
  {
   "property": "C76",
   "status": "proved",
   "theorems": [
    "C76_tables",
    "C76_active_balance",
    "C76_reactive_balance",
    "C76_voltages"
   ],
   "note": "base and target share baseMVA, branch table, shunts and generator placement and status; needs the polar identity and modulus laws, proved for the reals"
  },
  {
   "property": "C77",
   "status": "partial",
   "theorems": [
    "C77_identical_partial",
    "C77_refuted"
   ],
   "note": "refuted by a two-bus case; holds when a run returns, which forces a single bus"
  },
  {
   "property": "C78",
   "status": "partial",
   "theorems": [
    "C78_overshoot_partial",
    "C78_refuted"
   ],
   "note": "refuted by a step of 1/4 towards lambda = 1/5; proved: a successful run never has an intermediate point above the target"
  },
  {
   "property": "C79",
   "status": "partial",
   "theorems": [
    "C79_base_partial",
    "C79_refuted"
   ],
   "note": "refuted by a base case that needs more iterations than allowed; holds when the base power flow converged"
  },
  {
   "property": "C80",
   "status": "proved",
   "theorems": [
    "C80_balance",
    "C80_reported"
   ],
   "note": "Lifts C17 through the conversion proofs to the tables of the caller (reports is defined in Spec/RunSpec.v from external bus numbers only)."
  },
  {
   "property": "C81",
   "status": "proved",
   "theorems": [
    "C81_reported",
    "C81_active",
    "C81_reactive",
    "C81_magnitude"
   ],
   "note": "Lifts C22, C49 and C50 through the conversion proofs; polar functions and solvers are parameters."
  },
  {
   "property": "C82",
   "status": "proved",
   "theorems": [
    "C82_steps",
    "C82_bounds"
   ],
   "note": "The source measures angles at PQ and magnitudes at PV and PQ buses (roles swapped compared with the unknowns); the specification states what it measures."
  },
  {
   "property": "C83",
   "status": "proved",
   "theorems": [
    "C83_tables",
    "C83_multipliers",
    "C83_solution",
    "C83_norms"
   ],
   "note": "Model/RunOpf.v: opf.py with opf_execute.py, PF_DC, no user data and callbacks. The tolerance is feastol times one plus the largest variable or slack of the last iterate."
  },
  {
   "property": "C84",
   "status": "partial",
   "theorems": [
    "C84_kept_partial",
    "C84_stale_refuted"
   ],
   "note": "False: opf_execute.py:134-138 writes only the rows with a limit and nothing clears the others, so multipliers of an earlier run survive. Proved instead: such branches keep the value the case came with."
  },
  {
   "property": "C85",
   "status": "proved",
   "theorems": [
    "C85_tables",
    "C85_multipliers",
    "C85_solution",
    "C85_norms"
   ],
   "note": "Model/RunAcOpf.v: opf.py with opf_execute.py for OPF_ALG 560/565, no user data and callbacks. The tolerance is feastol times one plus the largest variable or slack of the last iterate."
  },
  {
   "property": "C86",
   "status": "proved",
   "theorems": [
    "C86_prices"
   ],
   "note": "Model/RunAcOpf.v:update_mupq, edge_mults."
  },
  {
   "property": "C87",
   "status": "partial",
   "theorems": [
    "C87_one_sided_refuted",
    "C87_sides_partial"
   ],
   "note": "Refuted: with edges on one side only, makeApq returns a one-dimensional empty array for the other side and update_mupq raises IndexError after convergence. Proved: a successful run has edges of both kinds or none."
  },
  {
   "property": "C88",
   "status": "proved",
   "theorems": [
    "C88_rows",
    "C88_losses"
   ],
   "note": "modulus and unit circle functions are parameters with their defining equations; text formatting is not modelled"
  },
  {
   "property": "C89",
   "status": "proved",
   "theorems": [
    "C89_sums",
    "C89_balance"
   ],
   "note": ""
  },
  {
   "property": "C90",
   "status": "proved",
   "theorems": [
    "C90_balance"
   ],
   "note": ""
  },
  {
   "property": "C91",
   "status": "partial",
   "theorems": [
    "C91_balance_partial",
    "C91_reactive_refuted"
   ],
   "note": "false as stated; proved: the exact difference, the charging at the area's end of its tie lines"
  },
  {
   "property": "C92",
   "status": "partial",
   "theorems": [
    "C92_totals_partial",
    "C92_exports_partial",
    "C92_lost_partial",
    "C92_area_refuted"
   ],
   "note": "false as stated; proved if the lowest area number occurs twice, otherwise the lowest area is lost and the next one doubled"
  },
  {
   "property": "C93",
   "status": "proved",
   "theorems": [
    "C93_settings",
    "C93_active",
    "C93_reactive",
    "C93_flows"
   ],
   "note": ""
  },
  {
   "property": "C94",
   "status": "partial",
   "theorems": [
    "C94_all_partial",
    "C94_never_partial",
    "C94_voltage_refuted"
   ],
   "note": "false as stated; proved: all buses are listed with setting 2, none with setting 1"
  },
  {
   "property": "C95",
   "status": "partial",
   "theorems": [
    "C95_loads_partial",
    "C95_load_refuted"
   ],
   "note": "false as stated; proved: a report that comes back has no dispatchable load at a limit to be listed"
  },
  {
   "property": "C96",
   "status": "partial",
   "theorems": [
    "C96_ac_partial",
    "C96_dc_partial",
    "C96_dc_refuted"
   ],
   "note": "false for DC reports; proved for AC, and for DC the exact change"
  },
  {
   "property": "C97",
   "status": "partial",
   "theorems": [
    "C97_cleared_partial",
    "C97_isolated_refuted"
   ],
   "note": "false as stated; proved: the exact difference for any set of branches whose flows were cleared"
  },
  {
   "property": "C98",
   "status": "proved",
   "theorems": [
    "C98_generators",
    "C98_loads",
    "C98_buses"
   ],
   "note": ""
  },
  {
   "property": "C99",
   "status": "proved",
   "theorems": [
    "C99_tables",
    "C99_solution"
   ],
   "note": "linear solver and sort are parameters; AC formulation with reserves is not modelled"
  }
 ]
}