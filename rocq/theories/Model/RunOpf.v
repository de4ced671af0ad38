(** opf.py with opf_execute.py, from the tables of a loaded case to the reported tables: result columns,
    conversion to internal numbering, formulation and solution (Model/DcOpf.v), multipliers of angle limits,
    conversion back, zeroed results of equipment that is out of service.  Cases without user
    constraints, user costs and callbacks.  Left out: the arguments of the call (opf_args.py), printed output,
    elapsed time, the copies of variables and multipliers by name. *)
From Verif Require Export Model.RunPf Model.DcOpf.

Section RunOpf.
Context {K : Type} {F : Fld K}.
Variable argsort : list Z -> list nat.
Local Open Scope nat_scope.

(** opf.py:152-163: zero columns on the right up to [w] columns *)
Definition widen_to (w : nat) (t : list (list K)) : list (list K) :=
  map (fun r => if length r <? w then r ++ repeat 0%K (w - length r) else r) t.
Definition opf_columns (p : ppc_of K) : ppc_of K :=
  with_tables p (widen_to (MU_VMIN + 1) (p_bus p)) (widen_to (MU_QMIN + 1) (p_gen p))
    (widen_to (MU_ANGMAX + 1) (p_branch p)).

(** opf.py:174-182 *)
Definition back_to_external (q : ppc_of K) (bus gen branch : list (list K)) : result (ppc_of K) :=
  r <- int2ext (with_tables q bus gen branch) ;;
  o <- of_option KeyError (p_order r) ;;
  gen' <- zero_out (p_gen r) (o_gen_off o) [PG; QG; MU_PMAX; MU_PMIN] ;;
  branch' <- zero_out (p_branch r) (o_br_off o) [PF; QF; PT; QT; MU_SF; MU_ST; MU_ANGMIN; MU_ANGMAX] ;;
  Ok (with_tables r (p_bus r) gen' branch').

(** opf_execute.py:134-138: the multipliers of the angle limits, from row [i1] of the linear constraints *)
Definition ang_mults (success : bool) (iang : list nat) (i1 : nat) (mu_l mu_u : list K) (branch : list (list K))
  : result (list (list K)) :=
  let nang := length iang in
  if success && (0 <? nang) then
    let deg := map (fun a => a * fpi / fofZ 180)%K in
    b <- set_rows branch iang MU_ANGMIN (deg (slice i1 (i1 + nang) mu_l)) ;;
    set_rows b iang MU_ANGMAX (deg (slice i1 (i1 + nang) mu_u))
  else Ok branch.

(** a case without the fields A, N, zl, zu *)
Definition no_user : user (K := K) := User None [] [] [] [].
(** om.build_cost_params without user costs *)
Definition no_user_costs (nx : nat) : costp (K := K) := CostP (zerom 0 nx) (zerom 0 0) [] [] [].

Variable solve : smat K -> list K -> result (option (list K)).
Variable ln : K -> K.

(** opf_setup.py, opf_execute.py with PF_DC and opf.py:174-182 for a case in internal numbering, with the user
    constraints [U] and the user costs [cp], given for the number of variables: problem, solution, results *)
Definition dc_solved (ignore_ang : bool) (opts : dcopt) (baseMVA : K) (q : ppc_of K) (U : user) (cp : nat -> costp)
  : result (dcom * dcres * ppc_of K) :=
  gc <- of_option KeyError (p_gencost q) ;;
  om <- dc_setup ignore_ang baseMVA (p_bus q) (p_gen q) (p_branch q) gc U ;;
  z <- dcopf solve ln opts baseMVA (p_bus q) (p_gen q) (p_branch q) om (cp (d_nx om)) ;;
  branch <- ang_mults (z_success z) (d_iang om) (d_nb om + d_nl2 om + d_nl2 om)
              (m_mu_l (z_lmbda z)) (m_mu_u (z_lmbda z)) (z_branch z) ;;
  r <- back_to_external q (z_bus z) (z_gen z) branch ;;
  Ok (om, z, r).

(** opf.py:150-191 with PF_DC: results, objective, success *)
Definition dc_opf (ignore_ang : bool) (opts : dcopt) (baseMVA : K) (p : ppc_of K) : result (ppc_of K * K * bool) :=
  _ <- guard (match p_A p, p_N p with None, None => true | _, _ => false end) OutOfModel ;;
  q <- ext2int argsort (opf_columns p) ;;
  '(om, z, r) <- dc_solved ignore_ang opts baseMVA q no_user no_user_costs ;;
  Ok (r, z_f z, z_success z).
End RunOpf.
