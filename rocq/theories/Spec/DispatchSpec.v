(** What the documentation says about options and solver codes. *)
From Verif Require Import Model.Dispatch.
Local Open Scope string_scope.

(** the option [n] is listed in the tables of ppoption.py with default [v] *)
Definition listed (tables : list options) (n : string) (v : optv) : Prop :=
  exists t m, In t tables /\ In (m, v) t /\ n = upper m.
Definition documented : string -> optv -> Prop :=
  listed [PF_OPTIONS; CPF_OPTIONS; OPF_OPTIONS; OUTPUT_OPTIONS; PDIPM_OPTIONS; GUROBI_OPTIONS].
Definition documented_gurobi : string -> optv -> Prop := listed [GUROBI_OPTIONS].

(** ppoption(base, given): the value given in the call, else that of the base, else, without a base, the default *)
Inductive in_force (base : option options) (given : options) (n : string) (v : optv) : Prop :=
| by_call : In (n, v) given -> in_force base given n v
| by_base d : ~ In n (map fst given) -> base = Some d -> oget d n = Some v -> in_force base given n v
| by_default : ~ In n (map fst given) -> base = None -> documented n v -> in_force base given n v.

(** solver codes of a quadratic program (ppoption.py:95-110, qps_pypower.py:45-58) *)
Inductive method : Type := M_pips | M_pips_sc | M_ipopt | M_cplex | M_mosek | M_gurobi.
Definition qp_codes : list (Z * method) :=
  [(200, M_pips); (250, M_pips_sc); (400, M_ipopt); (500, M_cplex); (600, M_mosek); (700, M_gurobi)]%Z.
Definition is_method (m : method) (s : solver) : Prop :=
  match m, s with
  | M_pips, Pips d => oget d "step_control" = Some (OBool false)
  | M_pips_sc, Pips d => oget d "step_control" = Some (OBool true)
  | M_ipopt, Ipopt | M_cplex, Cplex | M_mosek, Mosek | M_gurobi, Gurobi => True
  | _, _ => False
  end.

(** settings of the interior point method, by option name *)
Definition pips_names : list (string * string) :=
  [("gradtol", "PDIPM_GRADTOL"); ("comptol", "PDIPM_COMPTOL"); ("costtol", "PDIPM_COSTTOL");
   ("max_it", "PDIPM_MAX_IT"); ("max_red", "SCPDIPM_RED_IT"); ("verbose", "VERBOSE")].
Definition settings_of (ppopt : options) (d : options) : Prop :=
  (forall s o, In (s, o) pips_names -> oget d s = oget ppopt o /\ oget d s <> None) /\
  (exists tol, oget ppopt "PDIPM_FEASTOL" = Some tol /\
     oget d "feastol" = if eqZ tol 0 then oget ppopt "OPF_VIOLATION" else Some tol) /\
  oget d "feastol" <> None.
(** all documented options outside the Gurobi table have a value *)
Definition complete (ppopt : options) : Prop :=
  forall n v, documented n v -> ~ documented_gurobi n v -> oget ppopt n <> None.
