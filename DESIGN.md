# Formal model of PYPOWER in Rocq/Coq 8.16.1

Source modelled: `/repo` (rwl/PYPOWER, read as text only, never executed).

## 1. Modelling conventions

* **Style.** Shallow, executable Gallina functions that follow the Python functions branch by
  branch. Python exceptions are values (`result A := Ok a | Err e`, file `Lib/Py.v`).
  Functions that mutate arrays in place become functions returning the new array; where the
  aliasing itself is observable (e.g. a list stored in two places) it is written into the model.
* **Tables.** A numpy 2-D array is a list of rows, a row is a list of cells. Column constants
  are those of `idx_bus.py`, `idx_gen.py`, `idx_brch.py`, `idx_cost.py`, `idx_area.py`,
  `idx_dcline.py` (file `Model/Idx.v`). Reading a column that a table does not have is
  `IndexError` in Python; models either use checked access or check the table width up front.
* **Numbers.**
  * Table cells of the book-keeping code are any type with the class `Cell` (`Lib/Num.v`). The two
    instances are `num := Fin q | PInf | NInf | NaN` with `q : Qc` (canonical rationals), so that
    payload columns may hold infinities and NaN, and any ordered field (`fld_cell`), which lets the
    conversion feed the numeric models.
  * Numeric code is generic over an ordered field `Fld K` (`Lib/Fld.v`). `Qc` is the executable
    instance (examples run under `vm_compute`); `R` is the analytic one. Theorems generic in `K` use
    no axioms and hold for both. `pi` is a field of the class: `np_pi`, the double nearest to pi, for
    `Qc`, and `PI` for `R`.
  * Cost functions and the OPF model class are over `Qc`. Bounds that may be infinite are `ext K`.
  * Complex numbers are `cpx K` (pairs). `exp(1j*x)`, `abs` and `angle` are the parameters `cis`,
    `cabs`, `cang`; theorems ask for the laws they need (`polar_ok`, `modulus`). `cisR`, `cabsR`,
    `cangR` over `R` satisfy them (`polar_R`, `modulus_R` in `Props/P_AcPf.v`).
  * Statements about derivatives are over `R` and use the standard library's `derivable_pt_lim`.
  * Arithmetic is exact. Floating-point rounding is **not** modelled anywhere.
  * Division by zero (numpy: inf/nan) is `Err NonFinite` or is excluded by an explicit
    hypothesis; no theorem relies on Coq's totalised `x / 0`. Other inputs that the model does not
    cover give `Err OutOfModel`; theorems are about runs that return `Ok`, or name the exception.
* **Sparse matrices** are lists of entries with their shape (`Lib/Sparse.v`); duplicate entries add
  up as in SciPy.
* **Linear solvers** (`spsolve`, `splu`, `pplinsolve`, numpy `solve`), `log`, `linalg.norm`, `argsort`
  and the inner OPF of `uopf` are parameters (oracles). Theorems quantify over every oracle; when a
  theorem needs the oracle to be right it says so by a hypothesis ("the returned vector satisfies the
  system", "the returned list is a sorting permutation"). `Lib/GaussQ.v` is an elimination used only
  to run examples.
* **Library versions.** Where the outcome depends on the NumPy/SciPy version the behaviour is a
  parameter: `bool_neg` (unary minus on a boolean sparse matrix, `Model/Loads.v`), `float_index`
  (indexing with floats, `Model/DcLine.v` and `Model/Qlim.v`), `int_map` (integer-valued interface
  map, `Model/Iflims.v`). Properties about "the pinned version" fix it to the version pinned in the
  repository's requirements.
* **Names.** `..._partial`: only part of the property is proved, comment says what is missing.
  `..._refuted`: the property is false of the code as written; the theorem exhibits a witness.
* **False properties.** When a property holds for part of its range only, the property is stated for
  that part and a second property covers the rest, with a `_refuted` theorem (the witness) and a
  `_partial` theorem (what does hold). These stay `partial` in the manifest: nothing more is true.
* **Layout.** `Lib/` generic facts; `Model/` definitions only; `Spec/` vocabulary for stating properties,
  independent of the models; `Proofs/` lemmas; `Props/` the property theorems (statement, `exact`, `Print Assumptions`) and non-vacuity
  examples.

## 2. Plan per property

| id | modelled | proof method |
|----|----------|--------------|
| C01-C04 | `ext2int`, `int2ext` on bus/gen/branch/gencost/areas tables and the `order` dict | list algebra: gather/scatter along index lists, permutation argsort; equality of tables |
| C05 | `get_reorder`, `set_reorder`, `e2i_data`, `i2e_data` | same gather/scatter lemmas; refutation by evaluation for the discarded sparse result |
| C06 | `add_userfcn`, `remove_userfcn`, `run_userfcn` over association lists | induction over registration history |
| C07 | `loadcase` version logic, `ppc_1to2` | column-wise equalities, refutation for solved widths |
| C08-C10 | class `opf_model` as a state machine | invariant by induction over operations; semantic equivalence for assembled constraints |
| C11-C14 | `polycost`, `totcost`, `modcost`, `polyshift` | induction on coefficients; Coquelicot `is_derive` for derivatives |
| C15 | `bustypes` | case analysis per bus |
| C16-C17 | `makeBdc`, `makeSbus`, `dcpf`, DC part of `runpf` | summation algebra over branch lists |
| C18-C19 | `makePTDF`, `makeLODF` with a solve oracle | linear algebra over sums |
| C20 | `makeYbus` | summation algebra over a field of complex numbers |
| C21 | iteration loops of `newtonpf`, `gausspf`, `fdpf` | induction on the iteration budget |
| C22 | `pfsoln` | summation algebra |
| C23-C25 | `dSbus_dV`, `dSbr_dV`, `dIbr_dV`, `dAbr_dV`, `d2*_dV2` | `is_derive` of finite sums of trigonometric terms |
| C26-C29 | `pips` | case analysis on bounds; loop invariant with arbitrary linear-solver output |
| C30 | objective assembly of `dcopf_solver` | algebra |
| C31-C33 | `makeAy`, `makeAang`, `makeAvl`, `makeApq`, `hasPQcap`, DC limits in `opf_setup` | per-row equivalences |
| C34 | `opf_costfcn` | algebra and derivative lemmas; refutations by evaluation |
| C35 | `total_load`, `scale_load` | summation algebra |
| C36 | `uopf` with the inner OPF as an oracle | induction on stages |
| C37-C39 | `toggle_*` and their callbacks | C06 lemmas, per-row equivalences |
| C40, C70 | reactive-limit loop in `runpf` | C40: what a returned solution satisfies; C70: any violation raises, by evaluation |
| C41 | `A`, `N` in `ext2int` | columns of the user matrices |
| C42, C43 | `ppc_1to2`, `loadcase` on a dict | column-wise equalities; case analysis of outcomes |
| C44, C45 | `opf_model` cost queries and late variables | evaluation of witnesses; semantic statements for the part that holds |
| C46 | `modcost` with a negative factor | evaluation; algebra for the polynomial case |
| C47 | `makeB` | reduction to `makeYbus` entries |
| C48 | `d2ASbr_dV2`, `d2AIbr_dV2` | product rule on C24, C25 |
| C49, C50 | AC part of `runpf` | C20-C22 composed; set-points carried through the loops |
| C51, C56, C57 | Newton direction, convexity, residuals of `pips` | algebra; weak duality with the termination conditions |
| C52 | bounds of `pips` with very large equal values | evaluation |
| C53 | `makeAy` for reactive costs | evaluation |
| C54, C55 | objective of `dcopf_solver` in the cases C30 leaves out | evaluation |
| C58, C59 | `dcopf_solver` with `qps_pips` and `pips` | C33 with C56; prices from stationarity |
| C60, C61, C64 | `opf_consfcn`, `opf_hessfcn` | C23-C25 assembled block by block |
| C62, C65 | `opf_setup`, `pipsopf_solver` (AC) | C26-C29 with C60; prices from stationarity |
| C63 | `opf_costfcn` in the cases C34 leaves out | evaluation |
| C66-C69 | the cases C35, C36, C38, C39 leave out | evaluation of exceptions |
| C71 | `newtonpf` | C23 and the linear system: exact first-order step |
| C72-C79, C82 | `cpf_p`, `cpf_p_jac`, `cpf_predictor`, `cpf_corrector`, `runcpf` | loop invariants; derivatives as for C71; witnesses for C77-C79 |
| C80, C81 | `runpf` from external tables to reported tables | C01-C03 with C17, C22, C49, C50 |
| C83, C84 | `opf`, `opf_execute` with PF_DC, external tables to reported tables | C01-C03 with C30, C33; witness for C84 |
| C85-C87 | `opf`, `opf_execute`, `update_mupq` (AC), external tables to reported tables | C01-C03 with C34, C62; witness for C87 |
| C88-C98 | `printpf`: unit, bus and branch tables, system and area summary, constraint listing, side effects | sums over masks as sums over rows; losses from the circuit equations; witnesses for C91, C92, C94-C97 |
| C99–C101 | `toggle_reserves` callbacks within a DC optimal power flow, external tables to reported reserves | C83 for a problem with user variables; columns of the reserve variables in the stationarity condition of C58 |
| C102 | a whole DC optimal power flow run, prices in the external tables | C59 at the internal rows, carried over by C83 |
| C103 | a whole DC optimal power flow run against any schedule of the external case | schedule as a point of the internal problem; C58, with distance and cost read from the reported tables |
| C104 | calling forms of the optimal power flow by position | forms as lists of role names (CallSpec); every form by cases, then the merge with the case role by role |
| C105 | constraints and costs of a call found again in the case handed on | table of the entries written; compare a second parse with the first; counterexamples with empty bounds and empty weights |
| C106 | the caller's dict after a call | every entry written equals the one there, so the dict is the same; counterexample with constraints |
| C107 | file name or dict | same path through the parser; counterexample with a field of reserves |
| C108 | bundled cases | transcribe the tables (tools/cases.py), check them by computation on integers, sound over any field; instance of C103 |
| C109 | uniqueness of the DC power flow | sum of squared angle differences over reactances is zero for the difference of two solutions; run via `carried`; spanning trees for the bundled cases |
| C110 | options of a call | dict lemmas; the default dict equals the five tables under upper-case names by evaluation |
| C111 | solver of a DC optimal power flow | case analysis over codes; every path of the four option builders ends in an error |
| C112 | solver of a quadratic program | case analysis |
| C113 | solver of an AC optimal power flow | `alg == a or alg == b` needs (a or b) = b, false for all four pairs |
| C114 | DC power flow independent of numbering, order of rows, elements out of service | a solution for one description is a solution for the other (sums over matching positions), then uniqueness (C109); permutations give position maps |
| C115 | DC power flow results are affine in the operating condition | Blend of two solutions of the power flow equations solves the blended equations; uniqueness (C109) makes it the reported one. |
| C116 | Whole-number tables give the same DC power flow | Second model of the run that stores through the array kind; moving rows commutes with dropping fractions; counterexample with a load of 101/2 MW. |
| C117 | Saved cases load again | Model of the written statements and of reading them (`Model/Savecase.v`); rounding functions are parameters; table by table: writing succeeds, reading gives the rounded cells; exactness from short decimals; general theorems for widths that never save. |
| C118 | User data can be saved | Inversion of a successful run: the test of every matrix must have been false, every vector has at most one element. |
| C119 | Options on the command line | Model of the callback and of option matching (`Model/Main.v`), number reading as parameters; dict lemmas of C110; names of the tables stay different in upper case by evaluation; invariant for `PF_DC`. |
| C120 | Running the results again | The returned tables describe the same network (`alike`), reported angles solve its equations (C109), uniqueness gives the rest. |
| C121 | Lossless DC flow | Sum the balance at each bus (C80), exchange sums, each row counted once at its bus; flows at both ends cancel (C109). |
| C122 | Polynomial to piecewise linear costs | Model of the call with the table as state (`Model/Poly2pwl.v`); types of limits decide each branch; differences, quotients and the evaluation of costs as parameters. |
| C123 | Interfaces to external solvers | Model of input handling by types and sizes (`Model/QpsExt.v`) up to the call of the solver; each statement before it either raises or goes on, the last one always raises. |
| C124 | Linear indices | Flattened tables as blocks of equal length, one block per column or row (`Model/Sub2ind.v`); also gives the access that the model of the DC optimal power flow takes for the last breakpoint. |
| C125 | Structures for IPOPT | Track the positions of stored entries through every matrix operation (`Proofs/IpoptA.v`, `Proofs/IpoptB.v`); all entries of the structure are positive and cannot cancel, so each of its positions is stored; block by block each position of a derivative is one of the structure (`Proofs/IpoptC.v`); second derivatives in the same way (`Proofs/IpoptD.v`, `Proofs/IpoptE.v`). |
| C126 | Constraints for IPOPT | C60 for values and gradients; bounds split at the lengths of the blocks; entries of stacked matrices by rows. |
| C127 | Multipliers after IPOPT | Masked assignment entry by entry; split of a number by its sign; offsets of the concatenated blocks. |
| C128 | Active and reactive costs | Rows picked by index; list equality entry by entry; both halves by length. |
| C129 | Nested fields | Dicts as association lists; paths; the loop only steps into new names, so induction on the names with an empty dict. |
| C130 | Forms of a loaded case | Cases over the tables that are there; added after wrong exit codes and a wrong order of tables passed C07 and C43. |

## 3. Trusted base

Coq kernel 8.16.1; the reading of the Python source (each definition cites its lines); the
oracles listed above; exact arithmetic in place of floating point. `Print Assumptions` follows
every property theorem in `Props/`.

## 4. Axioms

No axioms of our own. Theorems generic in the field, or over `Qc`, are closed under the global
context. The theorems stated over `R` (C11_derivatives, C23-C25, C34_gradient, C48, C60_derivatives,
C61_hessian, C64_returns_refuted, C65, C71-C74, C126_gradients) depend on the standard library's real numbers:
`ClassicalDedekindReals.sig_forall_dec`, `ClassicalDedekindReals.sig_not_dec`,
`FunctionalExtensionality.functional_extensionality_dep`.

## 5. Findings

What the source does that its documentation does not say. Those with a property number are proved;
the others were noticed while reading and are recorded in the models' comments where modelled.

**Conversion** (`ext2int.py`, `int2ext.py`, `e2i_*.py`, `i2e_*.py`)
* A bus number that no bus has is mapped silently to the first bus; duplicate bus numbers sum.
* Two or more invalid bus types raise `TypeError` instead of the intended message.
* `e2i_data` with several orderings on a sparse matrix discards the result (C05); `set_reorder` casts
  to the type of the old array.
* `i2e_field` has no `oldval` argument although `int2ext` passes one.

**Cases** (`loadcase.py`)
* A `version` entry is ignored; a solved version-1 branch table loses PF and shifts columns (C42);
  a 20-column generator table is left unchanged yet labelled '2'; failures raise
  `UnboundLocalError` instead of returning codes 1 and 5 (C43).

**OPF model** (`opf_model.py`)
* `add_costs` stores optional parameters under the literal key "name" (C44); the messages for wrong
  sizes raise `TypeError`; asking for one cost set destroys the others (C44); an omitted `varsets`
  aliases the order list, so variables added later change existing constraints (C45).

**Costs** (`modcost.py`, `totcost.py`, `poly2pwl.py`, `pqcost.py`, `fairmax.py`)
* Horizontal scaling by a negative factor reverses break points (C46); `poly2pwl` cannot run;
  `fairmax` calls a tuple, so `uopf` fails when minimum outputs exceed the load (C67).

**Power flow** (`runpf.py`, `pfsoln.py`, `gausspf.py`, `fdpf.py`)
* The widening test `shape[1] < QT` is off by one: a 16-column branch table is not widened.
* An unknown PF_ALG leaves V unbound. `gausspf` changes the caller's injections at PV buses. `fdpf`
  fails without PQ buses.
* Dividing reactive power among generators loses `(need - lo) * EPS / (hi - lo + EPS)` (C22, C81).
* Any violated reactive limit raises with the pinned NumPy (C70); lines 219-288 hide further bugs.

**Interior point** (`pips.py`)
* Bounds that agree to rounding but are 1e10 or more end up both as an equality and as an inequality
  (C52). Step control tests the wrong gradient. Termination does not check `h + z`.

**DC OPF** (`opf_setup.py`, `dcopf_solver.py`, `makeAy.py`, `makeAvl.py`, `makeAang.py`)
* Reactive piecewise costs after the first land on the wrong variable (C53); the constant of shifted
  user costs is omitted (C54); constants and cubic terms are dropped (C55); `dd` and `kk` are ignored.
* Algorithms 545 and 550 drop piecewise costs even for DC. `makeAvl` with both reactive limits nonzero
  forces Qg = 0. `makeAang` treats ANGMIN <= -360 as a real bound if ANGMAX is active.

**AC OPF** (`opf_costfcn.py`, `opf_consfcn.py`, `opf_hessfcn.py`)
* `any(ipol)` drops the cost when only row 0 is polynomial; all-piecewise costs raise (C63).
* Reactive costs, no limited branch, or piecewise costs only, make `opf_hessfcn` raise (C64).
* `opf_execute.py:120,125` call solvers with wrong arguments.

**Extensions** (`toggle_*.py`, `total_load.py`, `scale_load.py`, `uopf.py`)
* Dispatchable loads need unary minus on a boolean sparse matrix, which the pinned SciPy refuses (C66).
* A failed first OPF with a low objective hides later successes in `uopf` (C67).
* DC line callbacks index with floats or misplace rows (C68); interface limits require particular
  maps (C69); the reserve callbacks use names that are not imported.

**Continuation** (`runcpf.py`, `cpf_*.py`)
* Identical cases raise (C77); a target below the first step makes the step negative (C78); a failed
  base power flow is ignored (C79); a failed corrector discards the trace.
* The step control compares angles at PQ and magnitudes at PV and PQ buses (C82), the reverse of the
  unknowns. Arc length with lambda unchanged uses derivative 1 instead of 0.

**Whole optimal power flow** (`opf.py`, `opf_execute.py`)
* Angle multipliers of branches without an angle limit are never cleared; they survive from an earlier
  result (C84). Reactive multipliers of generators out of service are not cleared either.
* If capability curves of generators in service cut corners on one side only, `makeApq` keeps a
  one-dimensional empty array for the other side and `update_mupq` raises after convergence (C87).

**Other** (`opf_args.py`, `savecase.py`, `qps_pypower.py`, `opf_execute.py`)
* `opf_args2` changes the caller's dict; `A` passed with empty bounds is dropped. `savecase` raises
  for several optional fields. `elif 700:` sends unknown algorithms to Gurobi.
- `printpf`, area summary: the reactive net export is taken at the area's end of the tie lines, where it already
  contains half their charging, and the charging column counts it again, so reactive power of an area does not
  close (C91).
- `printpf`, `s_areas = sorted_areas[r_[1, find(diff(sorted_areas)) + 1]]` starts at the second entry (an index left from
  one-based numbering): if the lowest area has one bus it has no row and the next area has two; for a system of
  one bus printing raises an IndexError (C92).
- `printpf`, `OUT_V_LIM == 2 | (OUT_V_LIM == 1 & any(...))`: `|` and `&` bind tighter than `==`; the condition is false
  for setting 1, so voltage limits that are reached are never listed (C94).
- `printpf`, dispatchable loads at a limit: the active table hands an array to `%`, the reactive one calls `gen`; both
  raise a TypeError (C95).
- `printpf` with PF_DC zeroes QD, BS, QG, QMAX, QMIN, BR_R, BR_B in the caller's tables (C96).
- `printpf` counts loads of isolated buses, and losses on branches to them from whatever voltage they carry (C97).
- `toggle_reserves.py`: the price of reserves of a unit is documented as the maximum of the zone prices; the code adds
  them up (line 265), whatever the weights of the unit in the zones, and also for units out of service. Sizes that do
  not match only get a message (lines 113-121). Without a unit in service in a zone the results have no variable `R`
  and the run fails with a `KeyError`. The `savecase` callback cannot work (`r.zones` on a dict).
- The reserve price of a unit (`reserves.prc`) is documented as the maximum of the prices of its zones, but `userfcn_reserves_int2ext` reports their sum (C101). The sum is what makes the prices agree with costs (C100), so the documentation is at fault rather than the code.
- `opf_args2` fills in the dict of the caller: constraints, costs and variables of one call are in force in every later
  call with the same dict (C106). With a file name only the known fields are copied, so `reserves`, `if`, `dcline` of the
  file are lost while its `userfcn` is kept (C107). Constraints with `l = []` and costs with `Cw = []` are dropped without
  a message (C105). A case with `N` and `Cw` but no `H` ("will default to zeros") gets `H = None`, on which
  `opf_model.add_costs` raises an AttributeError.
- `ppoption`: the Gurobi options are listed in the module but not among the tables that make the defaults; `gurobi_options`
  therefore raises a KeyError (C110, C111). `cplex_options`, `ipopt_options` read options that no table lists.
- No DC optimal power flow with IPOPT, CPLEX, MOSEK or Gurobi can start: the option builders get `[]` as overrides and call
  `[].keys()`; IPOPT's reads `ppopt[16]`; MOSEK's tests `ppopt == None` the wrong way round. As the default code 0 prefers
  CPLEX, MOSEK and Gurobi, having one of these packages installed makes the default run fail (C111).
- `opf_execute`: `alg == 100 | alg == 200` is a chained comparison with `100 | alg` and never true (C113). The codes 500, 540,
  545 listed in `ppoption` are not accepted; after the message the unbound name `raw` is read.
- `dcopf_solver` looks for a module `gurobi`, `qps_pypower` for `gurobipy`. The order of the automatic choice is given as
  600, 500, 200 in `ppoption` and is CPLEX, MOSEK, Gurobi, PIPS in the code.
- `printpf` line 688 calls `ppoption(ppopt, 'OUT_ALL_LIM', 0)`; the function takes keyword arguments only, so printing power
  flow results of a case with callbacks raises a TypeError.
- Kind of array (C116). All models but `Model/IntTables.v` take tables as arrays of floats. `case9.py` and `case9Q.py` write the generator table without a decimal point, so numpy makes it an integer array, and `runpf` (also `pfsoln` for the AC power flow, by reading the code; not modelled) stores results into it, dropping their fractions. The optimal power flow is not affected, since `opf.py` appends columns of floats to the tables first. The theorems about power flow runs (C80, C81, C109, C114, C115) are about tables of floats.
- Saving a case (C117, C118). `savecase` makes the number of places for cost data from the largest count but fills in whole rows, so a cost table that is padded beyond that (as is usual after mixing tables) raises TypeError. Infinite limits are written as `inf`, which is not a name in `loadcase`. `len(ppc['A'])` raises TypeError for sparse matrices, and `print_sparse` calls `tocoo`, which dense arrays do not have, so user constraints and costs are never saved. The loops over user variables format the whole vector for each element, and the assignment of `zl` is indented too far. In every failing run the file has been opened before and is left partly written, and `ppc['version']` of the caller has been set.
- Command line (C119). The callback takes every string for a truth value, so `--pf_lin_solver_nr=LU3` ends in a TypeError (`option.choices` is None) and `1` is stored as True. `pdipm_feastol` has the integer default 0, so `--pdipm_feastol=1e-6` is rejected as not an integer. `PF_DC` is an option of the power flow command only; `opf` always runs the AC formulation. None of the continuation power flow options can be set from a command.
- `poly2pwl` (C122) fails for every table with a row. `range` is called with a float, in the order start, step, stop. The test for reactive power is `Pmin < (0 & Pmax) > 0`, a TypeError for floats and never true for integers. The function works on the table of its caller, whose coefficients are all zero when the exception is raised.
- Interfaces to external solvers (C123). None of the four can work. `any(any(H))` with the builtin `any` fails for every H with rows, `len` of a sparse matrix fails, `1e10 & l` is no operation on floats (CPLEX, Gurobi), the H made for a linear program is sparse and `len(H)` follows (IPOPT), and `'A' in p & len(p['A'])` combines a dict with a number (MOSEK). If limits are all infinite, the matrix becomes None, which has no first dimension.
- `sub2ind` (C124) takes remainders, so a column beyond the table is not an error but starts again at the first column. A piecewise linear cost with more points than the table has columns would take another entry for its last cost.
- The interface to IPOPT (C125) takes the transpose of the derivatives of the flow limits without looking whether there are any, so it stops with an AttributeError for a network without limited branches. Its structure of the Hessian is taken from the second derivatives of the cost at the start; a cubic cost of a generator with symmetric limits has none there, and its curvature is never handed over. The structure of the Jacobian is complete.
- pqcost.py:20-21, 33: the docstring asks for a list of indices, but `on + ng` only works for an array; with a list and reactive costs it raises TypeError (by reading).
- e2i_field.py:55-58 and i2e_field.py:44-47 (C129) step into the next dict only for a name that is new. The second field below `reserves` leaves an empty dict under its own name at the top of order['ext'], and a field of three names beside an earlier one raises KeyError.
- On seeded/LOG.jsonl: until the last hour tools/mutate.py wrote a line only for wrong programs that were caught, so the log looked better than the runs were. The attempts that were not caught and whose output was still there (22, and one without a clear outcome) are added at the end with `"outcome": "survived"` and what became of them. Outputs of other early runs were overwritten, so some attempts that were not caught are missing; the share of caught ones in the log is too high. Edits that the model itself did not accept were never logged. Some late runs (C127 on) only rebuilt the property file in question, so other files that fail are not listed there.
