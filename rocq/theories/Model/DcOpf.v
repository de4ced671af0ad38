(** The DC optimal power flow: the DC branch of opf_setup.py, dcopf_solver.py with the PIPS solver,
    and qps_pips.py.  Tables are in internal numbering with everything in service; bounds in the
    tables are finite.  User constraints come as the matrix A of the case; further callbacks of the
    formulation stage are left out.  The variables are Va, Pg, y, z and the constraint blocks Pmis,
    Pf, Pt, ang, ycon, usr in this order, placed as opf_model.linear_constraints does (Model/OpfModel).
    OPF_ALG is not one of the codes 545, 550 that switch the y variables off. *)
From Verif Require Export Model.OpfLin.

Section DcOpf.
Context {K : Type} {F : Fld K}.
Local Open Scope nat_scope.

(** ** opf_setup.py *)

(** pqcost.py as used in line 65: the active power rows *)
Definition pcost_rows (ng : nat) (gencost : list (list K)) : result (list (list K)) :=
  if length gencost =? ng then Ok gencost
  else if length gencost =? 2 * ng then Ok (firstn ng gencost)
  else Err UnboundLocalError.

(** lines 94-106: a piecewise-linear cost with one segment becomes a linear polynomial *)
Definition pwl1_row (r : list K) : result (list K) :=
  m <- get r MODEL ;; n <- get r NCOST ;;
  if is_pwl m && feqb n (fofZ 2) then
    x0 <- get r COST ;; y0 <- get r (COST + 1) ;;
    x1 <- get r (COST + 2) ;; y1 <- get r (COST + 3) ;;
    if feqb (x1 - x0)%K 0%K then Err NonFinite
    else let s := ((y1 - y0) / (x1 - x0))%K in
         Ok (upd (upd (upd (upd r MODEL POLY) NCOST (fofZ 2)) COST s) (COST + 1) (y0 - s * x0)%K)
  else Ok r.

(** lines 69-78: drop the Vm and Qg columns of a matrix of AC size *)
Definition ac_col (nb ng j : nat) : bool :=
  ((nb <=? j) && (j <? 2 * nb)) || ((2 * nb + ng <=? j) && (j <? 2 * nb + 2 * ng)).
Definition dc_col (nb ng j : nat) : nat := length (filter (fun k => negb (ac_col nb ng k)) (seq 0 j)).
Definition dc_cols (nb ng : nat) (A : smat K) : smat K :=
  if 2 * nb + 2 * ng <=? ncols A
  then SM (nrows A) (dc_col nb ng (ncols A))
         (map (fun e => Ent (erow e) (dc_col nb ng (ecol e)) (ev e))
            (filter (fun e => negb (ac_col nb ng (ecol e))) (ents A)))
  else A.

(** a block of constraints on some of the variables, written into all [nx] columns *)
Definition place (nx : nat) (f : nat -> nat) (A : smat K) : smat K :=
  SM (nrows A) nx (map (fun e => Ent (erow e) (f (ecol e)) (ev e)) (ents A)).

Record user := User {
  u_A : option (smat K); u_l : list (ext K); u_u : list (ext K);     (* A, l, u *)
  u_zl : list (ext K); u_zu : list (ext K) }.

Record dcom := DcOm {
  d_nb : nat; d_ng : nat; d_ny : nat; d_nz : nat;
  d_nl2 : nat; d_nang : nat; d_ncony : nat;
  d_Bf : smat K; d_Pfinj : list K; d_il : list nat; d_iang : list nat;
  d_gencost : list (list K);
  d_A : smat K; d_l : list (ext K); d_u : list (ext K); d_xmin : list (ext K); d_xmax : list (ext K) }.
Definition d_nx (o : dcom) : nat := d_nb o + d_ng o + d_ny o + d_nz o.

(** line 146 *)
Definition limited (a : K) : bool := negb (feqb a 0%K) && fltb a BIG.

Definition dc_setup (ignore_ang : bool) (baseMVA : K) (bus gen branch gencost : list (list K))
    (U : user) : result dcom :=
  let nb := length bus in let ng := length gen in
  gc0 <- pcost_rows ng gencost ;;
  gc <- mapM pwl1_row gc0 ;;
  let uA := option_map (dc_cols nb ng) (u_A U) in
  ty <- col BUS_TYPE bus ;;
  let refs := map (fun t => feqb t REF_BUS) ty in
  gbus <- idxcol ValueError GEN_BUS gen ;;
  _ <- gather bus gbus ;;
  va <- col VA bus ;;
  if feqb baseMVA 0%K then Err NonFinite
  else
    let pu := map (fun a => a / baseMVA)%K in
    pmin <- col PMIN gen ;;
    pmax <- col PMAX gen ;;
    '(B, Bf, Pbusinj, Pfinj) <- makeBdc bus branch ;;
    negCg <- sparse (repeat (ropp 1%K) ng) gbus (seq 0 ng) nb ng ;;
    Amis <- hstackm B negCg ;;
    pd <- col PD bus ;; gs <- col Idx.GS bus ;;
    let bmis := map2 rsub (map2 (fun p g => - (p + g) / baseMVA)%K pd gs) Pbusinj in
    rate <- col RATE_A branch ;;
    let il := find (map limited rate) in
    ra <- gather rate il ;;
    pfi <- gather Pfinj il ;;
    let upf := map2 rsub (pu ra) pfi in
    let upt := map2 radd (pu ra) pfi in
    '(Aang, lang, uang, iang) <- makeAang ignore_ang branch nb ;;
    m <- col MODEL gc ;;
    let ny := length (find (map is_pwl m)) in
    (* q1 is empty and not used: there are no reactive cost rows *)
    '(Ay, by_) <- makeAy baseMVA ng gc 1 0 (1 + ng) ;;
    let nu := nb + ng in
    let nz := match uA with Some A => ncols A - nu | None => 0 end in
    let nx := nb + ng + ny + nz in
    Afl <- rowsel Bf il ;;
    _ <- guard (match uA with
                | Some A => (nu <=? ncols A)
                            && (length (def_bounds ENeg (nrows A) (u_l U)) =? nrows A)
                            && (length (def_bounds EPos (nrows A) (u_u U)) =? nrows A)
                | None => true end) OutOfModel ;;
    _ <- guard ((length (def_bounds ENeg nz (u_zl U)) =? nz)
                && (length (def_bounds EPos nz (u_zu U)) =? nz)) OutOfModel ;;
    let here := fun j : nat => j in
    A1 <- vstackm (place nx here Amis) (place nx here Afl) ;;
    A2 <- vstackm A1 (place nx here (mapm ropp Afl)) ;;
    A3 <- vstackm A2 (place nx here Aang) ;;
    A4 <- vstackm A3 (place nx (fun j => nb + j) Ay) ;;
    A5 <- match uA with
          | Some A => vstackm A4 (place nx (fun j => if j <? nu then j else j + ny) A)
          | None => Ok A4
          end ;;
    let lpf := repeat ENeg (length il) in
    let lu := match uA with Some A => def_bounds ENeg (nrows A) (u_l U) | None => [] end in
    let uu := match uA with Some A => def_bounds EPos (nrows A) (u_u U) | None => [] end in
    let fix_ref := fun (d : ext K) => map2 (fun (r : bool) a => if r then EFin (a * (fpi / fofZ 180))%K else d) refs va in
    Ok (DcOm nb ng ny nz (length il) (length iang) (length by_) Bf Pfinj il iang gc
          A5
          (map EFin bmis ++ lpf ++ lpf ++ lang ++ repeat ENeg (length by_) ++ lu)
          (map EFin bmis ++ map EFin upf ++ map EFin upt ++ uang ++ map EFin by_ ++ uu)
          (fix_ref ENeg ++ map EFin (pu pmin) ++ repeat ENeg ny ++ def_bounds ENeg nz (u_zl U))
          (fix_ref EPos ++ map EFin (pu pmax) ++ repeat EPos ny ++ def_bounds EPos nz (u_zu U))).

(** ** dcopf_solver.py:102-182: the objective *)

(** the cost parameters returned by om.get_cost_params; dd and kk are not used *)
Record costp := CostP { k_N : smat K; k_H : smat K; k_Cw : list K; k_rh : list K; k_mm : list K }.

(** lines 134-146: coefficients of one polynomial row; other orders than 1 and 2 are taken as zero *)
Definition polycf (baseMVA : K) (r : list K) : result (K * K * K) :=
  n <- get r NCOST ;;
  if feqb n (fofZ 3) then
    a <- of_option ValueError (nth_error r COST) ;;
    b <- of_option ValueError (nth_error r (COST + 1)) ;;
    c <- of_option ValueError (nth_error r (COST + 2)) ;;
    Ok (a * (baseMVA * baseMVA), b * baseMVA, c)%K
  else if feqb n (fofZ 2) then
    b <- of_option ValueError (nth_error r COST) ;;
    c <- of_option ValueError (nth_error r (COST + 1)) ;;
    Ok (0, b * baseMVA, c)%K
  else Ok (0, 0, 0)%K.

(** vstack of the blocks that have rows *)
Definition vstack_nz (Ms : list (smat K)) : result (smat K) :=
  match filter (fun M => negb (nrows M =? 0)) Ms with
  | [] => Err ValueError
  | M :: t => foldM vstackm t M
  end.

Definition zerom (nr nc : nat) : smat K := SM nr nc [].

Definition dc_objective (baseMVA : K) (o : dcom) (cp : costp) : result (smat K * list K * K) :=
  let nxyz := d_nx o in let ny := d_ny o in
  let nw := nrows (k_N cp) in
  let i1y := d_nb o + d_ng o in
  m <- col MODEL (d_gencost o) ;;
  let ipol := find (map is_poly m) in
  let npol := length ipol in
  let any_pwl := if ny =? 0 then 0 else 1 in
  Npwl <- (if ny =? 0 then Ok (zerom 0 nxyz)
           else sparse (repeat 1%K ny) (repeat 0 ny) (seq i1y ny) 1 nxyz) ;;
  rows <- gather (d_gencost o) ipol ;;
  cf <- mapM (polycf baseMVA) rows ;;
  Npol <- sparse (repeat 1%K npol) (seq 0 npol) (map (fun i => d_nb o + i) ipol) npol nxyz ;;
  Hpol <- sparse (map (fun t => fofZ 2 * fst (fst t))%K cf) (seq 0 npol) (seq 0 npol) npol npol ;;
  NN <- vstack_nz [Npwl; Npol; k_N cp] ;;
  let Hpwl := zerom any_pwl (any_pwl + (npol + nw)) in
  Hp1 <- hstackm (zerom npol any_pwl) Hpol ;;
  Hp2 <- hstackm Hp1 (zerom npol nw) ;;
  Hu <- (if nw =? 0 then Ok (zerom 0 0) else hstackm (zerom nw (any_pwl + npol)) (k_H cp)) ;;
  HHw <- vstack_nz [Hpwl; Hp2; Hu] ;;
  let CCw := repeat 1%K any_pwl ++ map (fun t => snd (fst t)) cf ++ k_Cw cp in
  M <- diagm (repeat 1%K (any_pwl + npol) ++ k_mm cp) ;;
  MR <- mulv M (repeat 0%K (any_pwl + npol) ++ k_rh cp) ;;
  HMR <- mulv HHw MR ;;
  MN <- mulm M NN ;;
  T <- mulm (transp MN) HHw ;;
  HH <- mulm T MN ;;
  d <- ewise rsub CCw HMR ;;
  CC <- mulv (transp MN) d ;;
  Ok (HH, CC, (dec 5 1 * dotv MR HMR + lsum (fun t => snd t) cf)%K).

(** ** qps_pips.py:128-175, with H given *)
Definition qp_f (H : smat K) (c : list K) (x : list K) : result (K * list K) :=
  xH <- mulv (transp H) x ;;
  q <- ewise rmul xH x ;;
  p <- ewise rmul c x ;;
  Hx <- mulv H x ;;
  df <- ewise radd Hx c ;;
  Ok (dec 5 1 * lsum (fun a => a) q + lsum (fun a => a) p, df)%K.
Definition qp (H : smat K) (c : list K) : problem :=
  Problem (qp_f H c) (fun _ => Ok H) None (fun _ _ _ _ => Err OutOfModel).

(** ** dcopf_solver.py:184-285, OPF_ALG_DC 200 or 250 *)

(** line 188-201: the start point *)
Definition mid (lo up : ext K) : result K :=
  a <- match lo with ENeg => Ok (- BIG)%K | EFin a => Ok a | EPos => Err NonFinite end ;;
  b <- match up with EPos => Ok BIG | EFin b => Ok b | ENeg => Err NonFinite end ;;
  Ok ((a + b) / fofZ 2)%K.
(** gencost[i, NCOST + 2 * gencost[i, NCOST]], the cost at the last breakpoint *)
Definition last_cost (r : list K) : result K :=
  q <- get r NCOST ;;
  n <- to_idx OutOfModel q ;;
  if feqb q (fofZ (Z.of_nat n)) then of_option OutOfModel (nth_error r (NCOST + 2 * n))
  else Err OutOfModel.
Definition dc_start (o : dcom) (bus : list (list K)) : result (list K) :=
  ms <- ewise (fun a b => (a, b)) (d_xmin o) (d_xmax o) ;;
  x0 <- mapM (fun p => mid (fst p) (snd p)) ms ;;
  ty <- col BUS_TYPE bus ;;
  rb <- gather bus (find (map (fun t => feqb t REF_BUS) ty)) ;;
  va <- col VA rb ;;
  a <- of_option IndexError (nth_error va 0) ;;
  let x1 := repeat (a * (fpi / fofZ 180))%K (d_nb o) ++ skipn (d_nb o) x0 in
  if d_ny o =? 0 then Ok x1
  else
    m <- col MODEL (d_gencost o) ;;
    rows <- gather (d_gencost o) (find (map is_pwl m)) ;;
    c <- mapM last_cost rows ;;
    let mx := maxh c in
    let n := d_nb o + d_ng o in
    Ok (firstn n x1 ++ repeat (mx + dec 1 1 * fabs mx)%K (d_ny o) ++ skipn (n + d_ny o) x1).

(** the options PDIPM_FEASTOL, OPF_VIOLATION, PDIPM_GRADTOL, PDIPM_COMPTOL, PDIPM_COSTTOL,
    PDIPM_MAX_IT, SCPDIPM_RED_IT; alg = 250 turns step control on *)
Record dcopt := DcOpt {
  p_feastol : K; p_violation : K; p_gradtol : K; p_comptol : K; p_costtol : K;
  p_max_it : nat; p_max_red : nat; p_250 : bool }.
Definition pips_options (p : dcopt) : popt :=
  POpt (if feqb (p_feastol p) 0%K then p_violation p else p_feastol p) (p_gradtol p) (p_comptol p)
    (p_costtol p) (p_max_it p) (p_250 p) (p_max_red p) 1%K.

(** several columns of a table set to zero *)
Definition zero_cols (cs : list nat) (t : list (list K)) : result (list (list K)) :=
  foldM (fun t j => setcol j (repeat 0%K (length t)) t) cs t.

Record dcres := DcRes {
  z_bus : list (list K); z_gen : list (list K); z_branch : list (list K);
  z_x : list K; z_f : K; z_success : bool; z_lmbda : lmbda (K := K) }.

Definition dc_update (baseMVA : K) (bus gen branch : list (list K)) (o : dcom) (C0 : K)
    (s : solution) : result dcres :=
  let nb := d_nb o in let ng := d_ng o in
  let Va := slice 0 nb (r_x s) in
  let Pg := slice nb (nb + ng) (r_x s) in
  bus1 <- setcol VA (map (fun a => a * fofZ 180 / fpi)%K Va) bus ;;
  gen1 <- setcol PG (map (fun a => a * baseMVA)%K Pg) gen ;;
  br1 <- zero_cols [QF; QT] branch ;;
  bv <- mulv (d_Bf o) Va ;;
  fl <- ewise radd bv (d_Pfinj o) ;;
  let pf := map (fun a => a * baseMVA)%K fl in
  br2 <- setcol PF pf br1 ;;
  br3 <- setcol PT (map ropp pf) br2 ;;
  let lm := r_lmbda s in
  let pu := map (fun a => a / baseMVA)%K in
  bus2 <- zero_cols [LAM_P; LAM_Q; MU_VMIN; MU_VMAX] bus1 ;;
  gen2 <- zero_cols [MU_PMIN; MU_PMAX; MU_QMIN; MU_QMAX] gen1 ;;
  br4 <- zero_cols [MU_SF; MU_ST] br3 ;;
  lam <- ewise rsub (slice 0 nb (m_mu_u lm)) (slice 0 nb (m_mu_l lm)) ;;
  bus3 <- setcol LAM_P (pu lam) bus2 ;;
  br5 <- set_rows br4 (d_il o) MU_SF (pu (slice nb (nb + d_nl2 o) (m_mu_u lm))) ;;
  br6 <- set_rows br5 (d_il o) MU_ST (pu (slice (nb + d_nl2 o) (nb + d_nl2 o + d_nl2 o) (m_mu_u lm))) ;;
  gen3 <- setcol MU_PMIN (pu (slice nb (nb + ng) (m_lower lm))) gen2 ;;
  gen4 <- setcol MU_PMAX (pu (slice nb (nb + ng) (m_upper lm))) gen3 ;;
  Ok (DcRes bus3 gen4 br6 (r_x s) (r_f s + C0)%K (r_eflag s) lm).

Variable solve : smat K -> list K -> result (option (list K)).
Variable ln : K -> K.

Definition dcopf (p : dcopt) (baseMVA : K) (bus gen branch : list (list K)) (o : dcom) (cp : costp)
  : result dcres :=
  '(HH, CC, C0) <- dc_objective baseMVA o cp ;;
  x0 <- dc_start o bus ;;
  s <- pips solve ln (qp HH CC) (pips_options p) x0 (Some (d_A o)) (d_l o) (d_u o) (d_xmin o) (d_xmax o) ;;
  dc_update baseMVA bus gen branch o C0 s.
End DcOpf.
