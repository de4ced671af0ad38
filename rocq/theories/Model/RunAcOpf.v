(** opf.py with opf_execute.py for the AC problem, from the tables of a loaded case to the reported tables,
    with update_mupq.py.  OPF_ALG is 0, 560 or 565.  Simplifications as in Model/RunOpf.v; RETURN_RAW_DER is off. *)
From Verif Require Export Model.RunOpf Model.AcOpf.

Section RunAcOpf.
Context {K : Type} {F : Fld K}.
Variable argsort : list Z -> list nat.
Variables (cis : K -> cpx K) (cabs : cpx K -> K).
Variables (sin_ cos_ : K -> K) (atan2 : K -> K -> K) (norm2 : K -> K -> K).
Local Open Scope nat_scope.

(** makeApq.py:44-94, the entries h, l, ipqh, ipql of the returned dict: positions and coefficients of the rows for
    the upper and the lower edge.  Without such rows the coefficients are array([]), which has one dimension. *)
Definition edge_data (gen : list (list K)) (idx : list nat) (edge : list K -> result (K * K * K))
  : result (list nat * list (K * K)) :=
  rows <- gather gen idx ;;
  d <- mapM edge rows ;;
  Ok (idx, map (fun t => (fst (fst t), snd (fst t))) d).
Definition apq_data (gen : list (list K)) : result ((list nat * list (K * K)) * (list nat * list (K * K))) :=
  up <- mapM (hasPQcap Upper) gen ;;
  lo <- mapM (hasPQcap Lower) gen ;;
  h <- edge_data gen (find up) (upper_edge norm2) ;;
  l <- edge_data gen (find lo) (lower_edge norm2) ;;
  Ok (h, l).

(** update_mupq.py:37-43: v[idx] = v[idx] - mu * d[:, c] / baseMVA *)
Definition add_edge (baseMVA : K) (d : list nat * list (K * K)) (c : K * K -> K) (mu v : list K) : result (list K) :=
  match fst d with
  | [] => Err IndexError
  | idx =>
    if feqb baseMVA 0%K then Err NonFinite
    else
      old <- gather v idx ;;
      s <- ewise (fun m a => m * c a / baseMVA)%K mu (snd d) ;;
      new <- ewise (fun a b => a - b)%K old s ;;
      scatter_checked v idx new
  end.
(** update_mupq.py:28-51 *)
Definition update_mupq (baseMVA : K) (gen : list (list K)) (mu_h mu_l : list K)
    (h l : list nat * list (K * K)) : result (list (list K)) :=
  pmax <- col MU_PMAX gen ;; pmin <- col MU_PMIN gen ;;
  qmax <- col MU_QMAX gen ;; qmin <- col MU_QMIN gen ;;
  let muP := map2 (fun a b => a - b)%K pmax pmin in
  let muQ := map2 (fun a b => a - b)%K qmax qmin in
  muP1 <- add_edge baseMVA h fst mu_h muP ;;
  muQ1 <- add_edge baseMVA h snd mu_h muQ ;;
  muP2 <- add_edge baseMVA l fst mu_l muP1 ;;
  muQ2 <- add_edge baseMVA l snd mu_l muQ1 ;;
  let up := map (fun a => if fltb 0%K a then a else 0%K) in
  let dn := map (fun a => if fltb a 0%K then - a else 0)%K in
  g1 <- setcol MU_PMAX (up muP2) gen ;;
  g2 <- setcol MU_PMIN (dn muP2) g1 ;;
  g3 <- setcol MU_QMAX (up muQ2) g2 ;;
  setcol MU_QMIN (dn muQ2) g3.

(** opf_execute.py:98-107; [npqh] and [npql] rows for edges come first among the linear constraints *)
Definition edge_mults (baseMVA : K) (npqh npql : nat) (mu_l mu_u : list K) (data : result _)
    (bus gen : list (list K)) : result (list (list K)) :=
  gb <- idxcol OutOfModel GEN_BUS gen ;;
  vm <- col VM bus ;;
  vg <- gather vm gb ;;
  gen1 <- setcol VG vg gen ;;
  if (0 <? npqh) || (0 <? npql) then
    let net := map2 (fun a b => a - b)%K mu_l mu_u in
    '(h, l) <- data ;;
    update_mupq baseMVA gen1 (slice 0 npqh net) (slice npqh (npqh + npql) net) h l
  else Ok gen1.

(** om.build_cost_params without user costs *)
Definition no_user_gcosts (nx : nat) : gcostp (K := K) := GCostP (zerom 0 nx) (zerom 0 0) [] [] [] [] [].

Variable solve : smat K -> list K -> result (option (list K)).
Variable ln : K -> K.

(** opf.py:150-191 without PF_DC: results, objective, success *)
Definition ac_opf (ignore_ang : bool) (opts : dcopt) (lim : flow_lim) (baseMVA : K) (p : ppc_of K)
  : result (ppc_of K * K * bool) :=
  _ <- guard (match p_A p, p_N p with None, None => true | _, _ => false end) OutOfModel ;;
  q <- ext2int argsort (opf_columns p) ;;
  gc <- of_option KeyError (p_gencost q) ;;
  om <- ac_setup sin_ cos_ atan2 norm2 ignore_ang baseMVA (p_bus q) (p_gen q) (p_branch q) gc no_user ;;
  y <- pipsopf cis cabs solve ln opts lim baseMVA (p_bus q) (p_gen q) (p_branch q) om (no_user_gcosts (c_nx om)) ;;
  let mu_l := m_mu_l (y_lmbda y) in let mu_u := m_mu_u (y_lmbda y) in
  gen <- (if y_success y then
            edge_mults baseMVA (c_npqh om) (c_npql om) mu_l mu_u (apq_data (p_gen q)) (y_bus y) (y_gen y)
          else Ok (y_gen y)) ;;
  '(_, _, _, iang) <- makeAang ignore_ang (p_branch q) (length (p_bus q)) ;;
  branch <- ang_mults (y_success y) iang (c_npqh om + c_npql om + c_nvl om) mu_l mu_u (y_branch y) ;;
  r <- back_to_external q (y_bus y) gen branch ;;
  Ok (r, y_f y, y_success y).
End RunAcOpf.
