(** runpf.py from the tables of a loaded case to the reported tables: conversion to internal numbering,
    solution (Model/Network.v, Model/AcPf.v), conversion back, zeroed results of equipment that is out
    of service.  Left out: reading the case (Model/Loadcase.v), reactive limits (Model/Qlim.v), printed and
    saved output, elapsed time. *)
From Verif Require Export Model.Ext2int Model.AcPf.

Section RunPf.
Context {K : Type} {F : Fld K}.
Variable argsort : list Z -> list nat.
Variables (cis : K -> cpx K) (cabs cang : cpx K -> K).
Variables (solve : list (list K) -> list K -> result (list K))
          (splu : list (list K) -> result (list K -> result (list K))).
Local Open Scope nat_scope.

(** runpf.py:87-91: columns for the flows *)
Definition add_flow_cols (branch : list (list K)) : list (list K) :=
  map (fun r => if length r <? QT then r ++ repeat 0%K (QT - length r + 1) else r) branch.

Definition with_tables (p : ppc_of K) (bus gen branch : list (list K)) : ppc_of K :=
  {| p_bus := bus; p_gen := gen; p_branch := branch; p_gencost := p_gencost p; p_areas := p_areas p;
     p_A := p_A p; p_N := p_N p; p_order := p_order p |}.

(** ppopt['PF_DC'], PF_ALG, PF_TOL, and the iteration limit of the method *)
Inductive formulation := DC | AC (alg : pf_alg) (tol : K) (max_it : nat).

(** runpf.py:92-208 (without reactive limits); line 144: a DC power flow always succeeds *)
Definition solve_internal (f : formulation) (baseMVA : K) (bus gen branch : list (list K))
  : result (list (list K) * list (list K) * list (list K) * bool) :=
  match f with
  | DC => '(bus', gen', branch') <- runpf_dc solve baseMVA bus gen branch ;; Ok (bus', gen', branch', true)
  | AC alg tol max_it => runpf_ac cis cabs cang solve splu alg tol max_it baseMVA bus gen branch
  end.

(** t[ix_(rows, cols)] = 0 *)
Definition zero_out (t : list (list K)) (rows cols : list nat) : result (list (list K)) :=
  fold_left (fun t j => t <- t ;; set_rows t rows j (repeat 0%K (length rows))) cols (Ok t).

(** runpf.py:80-303; results and success *)
Definition runpf (f : formulation) (baseMVA : K) (p : ppc_of K) : result (ppc_of K * bool) :=
  q <- ext2int argsort (with_tables p (p_bus p) (p_gen p) (add_flow_cols (p_branch p))) ;;
  '(bus, gen, branch, success) <- solve_internal f baseMVA (p_bus q) (p_gen q) (p_branch q) ;;
  r <- int2ext (with_tables q bus gen branch) ;;
  o <- of_option KeyError (p_order r) ;;
  gen' <- zero_out (p_gen r) (o_gen_off o) [PG; QG] ;;
  branch' <- zero_out (p_branch r) (o_br_off o) [PF; QF; PT; QT] ;;
  Ok (with_tables r (p_bus r) gen' branch', success).
End RunPf.
