(** Options and choice of solver: pypower/ppoption.py, the wrappers rundcpf.py, rundcopf.py, runduopf.py, dcopf.py,
    and the parts of opf_execute.py, dcopf_solver.py, pipsopf_solver.py, qps_pypower.py and *_options.py that decide
    which solver is called, and with which settings.
    Left out: messages, the problem data handed to the solver (Model/DcOpf.v, Model/AcOpf.v), the settings built for
    IPOPT, CPLEX, MOSEK and Gurobi.  Floats of the tables are decimals. *)
From Coq Require Export String Ascii.
From Verif Require Export Lib.Py.
Local Open Scope string_scope.

(** value of an option; [OFloat m e] is m * 10^e *)
Inductive optv : Type := OBool (b : bool) | OInt (z : Z) | OFloat (m e : Z) | OStr (s : string) | OInf.
Definition options : Type := list (string * optv).

(** v == z *)
Definition eqZ (v : optv) (z : Z) : bool :=
  match v with
  | OBool b => ((if b then 1 else 0) =? z)%Z
  | OInt n => (n =? z)%Z
  | OFloat m e => if (0 <=? e)%Z then (m * 10 ^ e =? z)%Z else (m =? z * 10 ^ (- e))%Z
  | OStr _ | OInf => false
  end.
Definition truth (v : optv) : bool :=
  match v with OStr s => negb (s =? "") | OInf => true | _ => negb (eqZ v 0) end.
(** arithmetic, ordering and %d formatting need a number *)
Definition number (v : optv) : result unit := match v with OStr _ => Err TypeError | _ => Ok tt end.
(** z | v *)
Definition bor (z : Z) (v : optv) : result Z :=
  match v with OBool b => Ok (Z.lor z (if b then 1 else 0)) | OInt n => Ok (Z.lor z n) | _ => Err TypeError end.

Fixpoint oget (d : options) (k : string) : option optv :=
  match d with [] => None | (k', v) :: d => if k' =? k then Some v else oget d k end.
Fixpoint oset (d : options) (k : string) (v : optv) : options :=
  match d with [] => [(k, v)] | (k', v') :: d => if k' =? k then (k, v) :: d else (k', v') :: oset d k v end.
Definition okey (d : options) (k : string) : result optv := of_option KeyError (oget d k).

(** str.upper on ASCII *)
Definition up_ascii (c : ascii) : ascii :=
  let n := nat_of_ascii c in if (97 <=? n)%nat && (n <=? 122)%nat then ascii_of_nat (n - 32) else c.
Fixpoint upper (s : string) : string :=
  match s with EmptyString => EmptyString | String c s => String (up_ascii c) (upper s) end.

(** ppoption.py:8-33 *)
Definition PF_OPTIONS : options :=
  [("pf_alg", OInt 1); ("pf_tol", OFloat 1 (-8)); ("pf_max_it", OInt 10); ("pf_max_it_fd", OInt 30);
   ("pf_max_it_gs", OInt 1000); ("enforce_q_lims", OBool false); ("pf_dc", OBool false); ("pf_lin_solver_nr", OStr "")].
(** ppoption.py:35-70 *)
Definition CPF_OPTIONS : options :=
  [("cpf_parameterization", OInt 3); ("cpf_stop_at", OStr "NOSE"); ("cpf_step", OFloat 5 (-2));
   ("cpf_adapt_step", OBool false); ("cpf_error_tol", OFloat 1 (-3)); ("cpf_step_min", OFloat 1 (-4));
   ("cpf_step_max", OFloat 2 (-1)); ("cpf_plot_level", OInt 0); ("cpf_plot_bus", OStr "");
   ("cpf_user_callback", OStr ""); ("cpf_user_callback_args", OStr "")].
(** ppoption.py:72-111 *)
Definition OPF_OPTIONS : options :=
  [("opf_alg", OInt 0); ("opf_violation", OFloat 5 (-6)); ("opf_flow_lim", OInt 0);
   ("opf_ignore_ang_lim", OBool false); ("opf_alg_dc", OInt 0)].
(** ppoption.py:113-160 *)
Definition OUTPUT_OPTIONS : options :=
  [("verbose", OInt 1); ("out_all", OInt (-1)); ("out_sys_sum", OBool true); ("out_area_sum", OBool false);
   ("out_bus", OBool true); ("out_branch", OBool true); ("out_gen", OBool false); ("out_all_lim", OInt (-1));
   ("out_v_lim", OInt 1); ("out_line_lim", OInt 1); ("out_pg_lim", OInt 1); ("out_qg_lim", OInt 1);
   ("return_raw_der", OInt 0)].
(** ppoption.py:162-176 *)
Definition PDIPM_OPTIONS : options :=
  [("pdipm_feastol", OInt 0); ("pdipm_gradtol", OFloat 1 (-6)); ("pdipm_comptol", OFloat 1 (-6));
   ("pdipm_costtol", OFloat 1 (-6)); ("pdipm_max_it", OInt 150); ("scpdipm_red_it", OInt 20)].
(** ppoption.py:178-189 *)
Definition GUROBI_OPTIONS : options :=
  [("grb_method", OInt 1); ("grb_timelimit", OInf); ("grb_threads", OInt 0); ("grb_opt", OInt 0)].

(** d.update(kw) *)
Definition update (d kw : options) : options := fold_left (fun d kv => oset d (fst kv) (snd kv)) kw d.

(** ppoption.py:212-217 *)
Definition default_ppopt : options :=
  fold_left (fun d kv => oset d (upper (fst kv)) (snd kv))
    (PF_OPTIONS ++ CPF_OPTIONS ++ OPF_OPTIONS ++ OUTPUT_OPTIONS ++ PDIPM_OPTIONS)%list [].
(** ppoption.py:192-223; the base dict is copied *)
Definition ppoption (base : option options) (kw : options) : options :=
  update (match base with None => default_ppopt | Some d => d end) kw.

(** options that reach the run: runpf.py:77, runopf.py:28, runuopf.py:28 *)
Definition run_options (base : option options) : options := ppoption base [].
(** rundcpf.py:24-26, rundcopf.py:24-26, runduopf.py:24-26 *)
Definition run_dc_options (base : option options) : options :=
  run_options (Some (ppoption base [("PF_DC", OBool true)])).
(** dcopf.py:25 *)
Definition dcopf_options (base : option options) : options := ppoption base [("PF_DC", OInt 1)].

(** the solver called and, for PIPS, its settings *)
Inductive solver : Type := Pips (settings : options) | Ipopt | Cplex | Mosek | Gurobi.
(** opf_execute.py:86-89 raises ImportError *)
Inductive ac_choice : Type := AcPips (settings : options) | AcIpopt | AcImportError.
Inductive choice : Type := DcRun (s : solver) | AcRun (c : ac_choice).

(** the opt argument of qps_pypower, as far as it is looked at there *)
Record qp_opt : Type := QpOpt { q_alg : option optv; q_verbose : option optv; q_max_it : option optv; q_pips : option options }.

Section Dispatch.
Variable have : string -> bool.              (* have_fcn: the module can be imported *)
Variable from_cplex : bool.                  (* cplex provides cplexoptimset *)
Variable mosekopt : bool.                    (* pymosek provides mosekopt *)

(** ipopt_options([], ppopt), ipopt_options.py:67-97: the options are indexed with 16 *)
Definition ipopt_options (ppopt : options) : result unit :=
  verbose <- okey ppopt "VERBOSE" ;;
  o <- okey ppopt "IPOPT_OPT" ;;
  _ <- (if truth o then Err TypeError else Ok tt) ;;         (* '..#d' % o: no conversion in the format *)
  _ <- (if truth verbose then number verbose else Ok tt) ;;
  Err KeyError.                                              (* ppopt[16] *)

(** [].keys() *)
Definition overrides_keys : result unit := Err AttributeError.

(** cplex_options([], ppopt), cplex_options.py:79-147 *)
Definition cplex_options (ppopt : options) : result unit :=
  tol <- okey ppopt "OPF_VIOLATION" ;;
  _ <- number tol ;;
  verbose <- okey ppopt "VERBOSE" ;;
  lp <- okey ppopt "CPLEX_LPMETHOD" ;;
  qp <- okey ppopt "CPLEX_QPMETHOD" ;;
  o <- okey ppopt "CPLEX_OPT" ;;
  _ <- (if truth o then Err TypeError else Ok tt) ;;
  _ <- (if from_cplex then Ok tt else Err NameError) ;;
  _ <- number verbose ;;
  overrides_keys.

(** mosek_options([], ppopt), mosek_options.py:75-156: the test of the second argument is inverted *)
Definition mosek_options (ppopt : options) : result unit :=
  _ <- (if mosekopt then Ok tt else Err NameError) ;;
  overrides_keys.

(** gurobi_options([], ppopt), gurobi_options.py:68-120 *)
Definition gurobi_options (ppopt : options) : result unit :=
  verbose <- okey ppopt "VERBOSE" ;;
  o <- okey ppopt "GRB_OPT" ;;
  let user := truth o in                                     (* fname is then a tuple *)
  tol <- okey ppopt "OPF_VIOLATION" ;;
  _ <- number tol ;;
  m <- okey ppopt "GRB_METHOD" ;;
  t <- okey ppopt "GRB_TIMELIMIT" ;;
  n <- okey ppopt "GRB_THREADS" ;;
  _ <- number verbose ;;
  _ <- (if user then Err TypeError else Ok tt) ;;            (* eval of a tuple *)
  overrides_keys.

(** qps_pypower.py:140-205 *)
Definition qps_pypower (opt : qp_opt) : result solver :=
  let alg := match q_alg opt with Some a => a | None => OInt 0 end in
  let verbose := match q_verbose opt with Some v => v | None => OInt 0 end in
  let alg := if eqZ alg 0
             then (if have "cplex" then OInt 500 else if have "mosek" then OInt 600
                   else if have "gurobipy" then OInt 700 else OInt 200)
             else alg in
  if eqZ alg 200 || eqZ alg 250 then
    let pips_opt := match q_pips opt with Some d => d | None => [] end in
    let pips_opt := match q_max_it opt with Some m => oset pips_opt "max_it" m | None => pips_opt end in
    let pips_opt := if eqZ alg 200 then oset pips_opt "step_control" (OBool false)
                    else oset pips_opt "step_control" (OBool true) in
    let pips_opt := oset pips_opt "verbose" verbose in
    Ok (Pips pips_opt)
  else if eqZ alg 400 then Ok Ipopt
  else if eqZ alg 500 then Ok Cplex
  else if eqZ alg 600 then Ok Mosek
  else Ok Gurobi.                                            (* elif 700: *)

(** dcopf_solver.py:78-91, 184-227 *)
Definition dcopf_solver (ppopt : options) : result solver :=
  verbose <- okey ppopt "VERBOSE" ;;
  alg <- okey ppopt "OPF_ALG_DC" ;;
  let alg := if eqZ alg 0
             then (if have "cplex" then OInt 500 else if have "mosek" then OInt 600
                   else if have "gurobi" then OInt 700 else OInt 200)
             else alg in
  pips_opt <-
    (if eqZ alg 200 || eqZ alg 250 then
       feastol <- okey ppopt "PDIPM_FEASTOL" ;;
       gradtol <- okey ppopt "PDIPM_GRADTOL" ;;
       comptol <- okey ppopt "PDIPM_COMPTOL" ;;
       costtol <- okey ppopt "PDIPM_COSTTOL" ;;
       max_it <- okey ppopt "PDIPM_MAX_IT" ;;
       max_red <- okey ppopt "SCPDIPM_RED_IT" ;;
       feastol <- (if eqZ feastol 0 then okey ppopt "OPF_VIOLATION" else Ok feastol) ;;
       Ok (Some [("feastol", feastol); ("gradtol", gradtol); ("comptol", comptol); ("costtol", costtol);
                 ("max_it", max_it); ("max_red", max_red); ("cost_mult", OInt 1)])
     else if eqZ alg 400 then (_ <- ipopt_options ppopt ;; Ok None)
     else if eqZ alg 500 then (_ <- cplex_options ppopt ;; Ok None)
     else if eqZ alg 600 then (_ <- mosek_options ppopt ;; Ok None)
     else if eqZ alg 700 then (_ <- gurobi_options ppopt ;; Ok None)
     else (_ <- number alg ;; Err ValueError)) ;;
  qps_pypower (QpOpt (Some alg) (Some verbose) None pips_opt).

(** pipsopf_solver.py:70-88 *)
Definition pipsopf_solver (ppopt : options) : result options :=
  verbose <- okey ppopt "VERBOSE" ;;
  feastol <- okey ppopt "PDIPM_FEASTOL" ;;
  gradtol <- okey ppopt "PDIPM_GRADTOL" ;;
  comptol <- okey ppopt "PDIPM_COMPTOL" ;;
  costtol <- okey ppopt "PDIPM_COSTTOL" ;;
  max_it <- okey ppopt "PDIPM_MAX_IT" ;;
  max_red <- okey ppopt "SCPDIPM_RED_IT" ;;
  code <- okey ppopt "OPF_ALG" ;;
  feastol <- (if eqZ feastol 0 then okey ppopt "OPF_VIOLATION" else Ok feastol) ;;
  Ok [("feastol", feastol); ("gradtol", gradtol); ("comptol", comptol); ("costtol", costtol);
      ("max_it", max_it); ("max_red", max_red); ("step_control", OBool (eqZ code 565));
      ("cost_mult", OFloat 1 (-4)); ("verbose", verbose)].

(** alg == a | alg == b, which Python reads as alg == (a | alg) == b *)
Definition either_code (alg : optv) (a b : Z) : result bool :=
  z <- bor a alg ;; Ok (eqZ alg z && (z =? b)%Z).

(** opf_execute.py:68-75 *)
Definition renew_code (alg : optv) : result optv :=
  c <- either_code alg 100 200 ;;
  if c then Ok (OInt 300) else
  c <- either_code alg 120 220 ;;
  if c then Ok (OInt 320) else
  c <- either_code alg 140 240 ;;
  if c then Ok (OInt 340) else
  c <- either_code alg 160 260 ;;
  if c then Ok (OInt 360) else Ok alg.

(** opf_execute.py:38-91; for an invalid code the next line reads the unbound [raw] *)
Definition opf_execute (ppopt : options) : result choice :=
  dc <- okey ppopt "PF_DC" ;;
  alg <- okey ppopt "OPF_ALG" ;;
  verbose <- okey ppopt "VERBOSE" ;;
  _ <- number verbose ;;
  if truth dc then (s <- dcopf_solver ppopt ;; Ok (DcRun s))
  else
    let alg := if eqZ alg 0 then OInt 560 else alg in
    alg <- renew_code alg ;;
    let ppopt := oset ppopt "OPF_ALG_POLY" alg in
    if eqZ alg 560 || eqZ alg 565 then (d <- pipsopf_solver ppopt ;; Ok (AcRun (AcPips d)))
    else if eqZ alg 580 then (if have "pyipopt" then Ok (AcRun AcIpopt) else Ok (AcRun AcImportError))
    else Err UnboundLocalError.
End Dispatch.
