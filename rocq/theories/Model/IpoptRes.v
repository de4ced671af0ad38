(** pypower/ipoptopf_solver.py:280-337: the multipliers in the results, from those that IPOPT returns.
    [rate] is branch[il, RATE_A].  The tables are updated as in Model/AcOpf.v:[ac_update]. *)
From Verif Require Export Model.IpoptOpf.
Local Open Scope nat_scope.

Section Results.
Context {K : Type} {F : Fld K}.

(** into[k] = g(lam[k]) for k = find(sel(lam)) *)
Definition pick (sel : K -> bool) (g : K -> K) (lam into : list K) : result (list K) :=
  let k := find (map sel lam) in
  v <- gather lam k ;;
  scatter_checked into k (map g v).

Record ipmu := IpMu { nln_l : list K; nln_u : list K; lin_l : list K; lin_u : list K; pimul : list K }.

Definition ipopt_mu (nb nl nA ny : nat) (baseMVA : K) (il : list nat) (rate lmbda zl zu : list K) : result ipmu :=
  let nl2 := length il in
  (* lines 283-287 *)
  lf <- gather lmbda (seq (2 * nb) nl2) ;;
  lt <- gather lmbda (seq (2 * nb + nl2) nl2) ;;
  mf <- ewise (fun a r => fofZ 2 * a * r / baseMVA)%K lf rate ;;
  mt <- ewise (fun a r => fofZ 2 * a * r / baseMVA)%K lt rate ;;
  muSf <- scatter_checked (repeat 0%K nl) il mf ;;
  muSt <- scatter_checked (repeat 0%K nl) il mt ;;
  (* lines 301-310; om.getN('nln') counts the balances and both ends of all branches *)
  let eq := firstn (2 * nb) lmbda in
  nl <- pick (fun a => fltb a 0%K) ropp eq (repeat 0%K (2 * nb + nl + nl)) ;;
  nu <- pick (fun a => fltb 0%K a) (fun a => a) eq (repeat 0%K (2 * nb) ++ muSf ++ muSt) ;;
  (* lines 312-319 *)
  lam_lin <- gather lmbda (seq (2 * nb + 2 * nl2) nA) ;;
  ll <- pick (fun a => fltb a 0%K) ropp lam_lin (repeat 0%K nA) ;;
  lu <- pick (fun a => fltb 0%K a) (fun a => a) lam_lin (repeat 0%K nA) ;;
  (* lines 332-337 *)
  p1 <- ewise rsub nl nu ;; p2 <- ewise rsub ll lu ;; p3 <- ewise rsub zl zu ;;
  Ok (IpMu nl nu ll lu (p1 ++ p2 ++ repeat (ropp 1%K) (if 0 <? ny then 1 else 0) ++ p3)).
End Results.
