(** The AC optimal power flow: the AC branch of opf_setup.py and pipsopf_solver.py.  Tables are in
    internal numbering; bounds in the tables are finite.  User constraints come as the matrix A of the
    case; further callbacks of the formulation stage are left out.  The constraint blocks are PQh, PQl,
    vl, ang, ycon, usr in this order, placed as opf_model.linear_constraints does (Model/OpfModel).
    OPF_ALG is 560 or 565. *)
From Verif Require Export Model.DcOpf Model.OpfFcn.

Section AcOpf.
Context {K : Type} {F : Fld K}.
Variables (cis : K -> cpx K) (cabs : cpx K -> K).
Variables (sin_ cos_ : K -> K) (atan2 : K -> K -> K) (norm2 : K -> K -> K).
Local Open Scope nat_scope.

Record acom := AcOm {
  c_nb : nat; c_ng : nat; c_ny : nat; c_nz : nat;
  c_npqh : nat; c_npql : nat; c_nvl : nat; c_nang : nat; c_ncony : nat;
  c_gencost : list (list K);
  c_A : smat K; c_l : list (ext K); c_u : list (ext K); c_xmin : list (ext K); c_xmax : list (ext K) }.
Definition c_nx (o : acom) : nat := c_nb o + c_nb o + c_ng o + c_ng o + c_ny o + c_nz o.

(** ** opf_setup.py:93-265 with dc false *)
Definition ac_setup (ignore_ang : bool) (baseMVA : K) (bus gen branch gencost : list (list K))
    (U : user) : result acom :=
  let nb := length bus in let ng := length gen in
  gc <- mapM pwl1_row gencost ;;
  ty <- col BUS_TYPE bus ;;
  let refs := map (fun t => feqb t REF_BUS) ty in
  gbus <- idxcol ValueError GEN_BUS gen ;;
  _ <- gather bus gbus ;;
  va <- col VA bus ;;
  if feqb baseMVA 0%K then Err NonFinite
  else
    let pu := map (fun a => a / baseMVA)%K in
    pmin <- col PMIN gen ;; pmax <- col PMAX gen ;;
    qmin <- col QMIN gen ;; qmax <- col QMAX gen ;;
    '(Avl, lvl, uvl, ivl) <- makeAvl sin_ cos_ atan2 baseMVA gen ;;
    '(Apqh, ubpqh, (Apql, ubpql), _) <- makeApq norm2 baseMVA gen ;;
    vmin <- col VMIN bus ;; vmax <- col VMAX bus ;;
    '(Aang, lang, uang, iang) <- makeAang ignore_ang branch nb ;;
    m <- col MODEL gc ;;
    let ny := length (find (map is_pwl m)) in
    '(Ay, by_) <- makeAy baseMVA ng gc 1 ng (1 + ng + ng) ;;
    let nu := nb + nb + ng + ng in
    let uA := u_A U in
    let nz := match uA with Some A => ncols A - nu | None => 0 end in
    let nx := nb + nb + ng + ng + ny + nz in
    _ <- guard (match uA with
                | Some A => (nu <=? ncols A)
                            && (length (def_bounds ENeg (nrows A) (u_l U)) =? nrows A)
                            && (length (def_bounds EPos (nrows A) (u_u U)) =? nrows A)
                | None => true end) OutOfModel ;;
    _ <- guard ((length (def_bounds ENeg nz (u_zl U)) =? nz)
                && (length (def_bounds EPos nz (u_zu U)) =? nz)) OutOfModel ;;
    let at_pg := fun j : nat => nb + nb + j in
    A1 <- vstackm (place nx at_pg Apqh) (place nx at_pg Apql) ;;
    A2 <- vstackm A1 (place nx at_pg Avl) ;;
    A3 <- vstackm A2 (place nx (fun j => j) Aang) ;;
    A4 <- vstackm A3 (place nx at_pg Ay) ;;
    A5 <- match uA with
          | Some A => vstackm A4 (place nx (fun j => if j <? nu then j else j + ny) A)
          | None => Ok A4
          end ;;
    let lu := match uA with Some A => def_bounds ENeg (nrows A) (u_l U) | None => [] end in
    let uu := match uA with Some A => def_bounds EPos (nrows A) (u_u U) | None => [] end in
    let fix_ref := fun (d : ext K) =>
      map2 (fun (r : bool) a => if r then EFin (a * (fpi / fofZ 180))%K else d) refs va in
    Ok (AcOm nb ng ny nz (length ubpqh) (length ubpql) (length ivl) (length iang) (length by_) gc
          A5
          (repeat ENeg (length ubpqh) ++ repeat ENeg (length ubpql) ++ lvl ++ lang
             ++ repeat ENeg (length by_) ++ lu)
          (map EFin ubpqh ++ map EFin ubpql ++ uvl ++ uang ++ map EFin by_ ++ uu)
          (fix_ref ENeg ++ map EFin vmin ++ map EFin (pu pmin) ++ map EFin (pu qmin)
             ++ repeat ENeg ny ++ def_bounds ENeg nz (u_zl U))
          (fix_ref EPos ++ map EFin vmax ++ map EFin (pu pmax) ++ map EFin (pu qmax)
             ++ repeat EPos ny ++ def_bounds EPos nz (u_zu U))).

(** ** pipsopf_solver.py *)

(** lines 110-124: the start point *)
Definition ac_start (o : acom) (bus : list (list K)) : result (list K) :=
  ms <- ewise (fun a b => (a, b)) (c_xmin o) (c_xmax o) ;;
  x0 <- mapM (fun p => mid (fst p) (snd p)) ms ;;
  ty <- col BUS_TYPE bus ;;
  rb <- gather bus (find (map (fun t => feqb t REF_BUS) ty)) ;;
  va <- col VA rb ;;
  a <- of_option IndexError (nth_error va 0) ;;
  let x1 := repeat (a * (fpi / fofZ 180))%K (c_nb o) ++ skipn (c_nb o) x0 in
  if c_ny o =? 0 then Ok x1
  else
    m <- col MODEL (c_gencost o) ;;
    rows <- gather (c_gencost o) (find (map is_pwl m)) ;;
    c <- mapM last_cost rows ;;
    let mx := maxh c in
    let n := c_nb o + c_nb o + c_ng o + c_ng o in
    Ok (firstn n x1 ++ repeat (mx + dec 1 1 * fabs mx)%K (c_ny o) ++ skipn (n + c_ny o) x1).

(** lines 69-88; [p_250] is OPF_ALG = 565 *)
Definition ac_options (p : dcopt) : popt :=
  POpt (if feqb (p_feastol p) 0%K then p_violation p else p_feastol p) (p_gradtol p) (p_comptol p)
    (p_costtol p) (p_max_it p) (p_250 p) (p_max_red p) (dec 1 4).

(** lines 130-133.  Without constrained branches opf_consfcn returns an array h of shape (0, 1), which
    pips.py:266 cannot join with the linear inequalities; there are some, since voltages are bounded. *)
Definition ac_problem (D : acdata) (lim : flow_lim) (Ybus Yf Yt : smat (cpx K)) (il : list nat)
  : problem :=
  Problem (opf_costfcn D) (fun _ => Err OutOfModel)
    (Some (fun x => r <- opf_consfcn cis cabs D lim Ybus Yf Yt il x ;;
                    match il with [] => Err ValueError | _ => Ok r end))
    (fun x lam mu cm => opf_hessfcn cis cabs D lim Ybus Yf Yt il x lam mu cm).

Record acres := AcRes {
  y_bus : list (list K); y_gen : list (list K); y_branch : list (list K);
  y_x : list K; y_f : K; y_success : bool; y_lmbda : lmbda (K := K) }.

(** lines 141-188: the result tables *)
Definition ac_update (baseMVA : K) (bus gen branch : list (list K)) (Yf Yt : smat (cpx K))
    (il : list nat) (s : solution) : result acres :=
  let nb := length bus in let ng := length gen in let nl := length branch in
  let nl2 := length il in
  let x := r_x s in let lm := r_lmbda s in
  let Va := slice 0 nb x in
  let Vm := slice nb (nb + nb) x in
  let Pg := slice (nb + nb) (nb + nb + ng) x in
  let Qg := slice (nb + nb + ng) (nb + nb + ng + ng) x in
  V <- polar cis Vm Va ;;
  bus1 <- setcol VA (map (fun a => a * fofZ 180 / fpi)%K Va) bus ;;
  bus2 <- setcol VM Vm bus1 ;;
  gen1 <- setcol PG (map (fun a => a * baseMVA)%K Pg) gen ;;
  gen2 <- setcol QG (map (fun a => a * baseMVA)%K Qg) gen1 ;;
  gb <- idxcol OutOfModel GEN_BUS gen2 ;;
  vg <- gather Vm gb ;;
  gen3 <- setcol VG vg gen2 ;;
  f <- idxcol OutOfModel F_BUS branch ;;
  t <- idxcol OutOfModel T_BUS branch ;;
  Vf <- gather V f ;; If <- mulv Yf V ;; Sf <- ewise (fun v i => cmul v (conj i)) Vf If ;;
  Vt <- gather V t ;; It <- mulv Yt V ;; St_ <- ewise (fun v i => cmul v (conj i)) Vt It ;;
  br1 <- setcol PF (map (fun z => re z * baseMVA)%K Sf) branch ;;
  br2 <- setcol QF (map (fun z => im z * baseMVA)%K Sf) br1 ;;
  br3 <- setcol PT (map (fun z => re z * baseMVA)%K St_) br2 ;;
  br4 <- setcol QT (map (fun z => im z * baseMVA)%K St_) br3 ;;
  rows <- gather br4 il ;;
  ra <- col RATE_A rows ;;
  let mus := fun m : list K => ewise (fun a r => fofZ 2 * a * r / baseMVA)%K m ra in
  mf <- mus (slice 0 nl2 (m_ineqnonlin lm)) ;;
  mt <- mus (slice nl2 (nl2 + nl2) (m_ineqnonlin lm)) ;;
  muSf <- scatter_checked (repeat 0%K nl) il mf ;;
  muSt <- scatter_checked (repeat 0%K nl) il mt ;;
  let pu := map (fun a => a / baseMVA)%K in
  bus3 <- setcol MU_VMAX (slice nb (nb + nb) (m_upper lm)) bus2 ;;
  bus4 <- setcol MU_VMIN (slice nb (nb + nb) (m_lower lm)) bus3 ;;
  gen4 <- setcol MU_PMAX (pu (slice (nb + nb) (nb + nb + ng) (m_upper lm))) gen3 ;;
  gen5 <- setcol MU_PMIN (pu (slice (nb + nb) (nb + nb + ng) (m_lower lm))) gen4 ;;
  gen6 <- setcol MU_QMAX (pu (slice (nb + nb + ng) (nb + nb + ng + ng) (m_upper lm))) gen5 ;;
  gen7 <- setcol MU_QMIN (pu (slice (nb + nb + ng) (nb + nb + ng + ng) (m_lower lm))) gen6 ;;
  bus5 <- setcol LAM_P (pu (slice 0 nb (m_eqnonlin lm))) bus4 ;;
  bus6 <- setcol LAM_Q (pu (slice nb (nb + nb) (m_eqnonlin lm))) bus5 ;;
  br5 <- setcol MU_SF (pu muSf) br4 ;;
  br6 <- setcol MU_ST (pu muSt) br5 ;;
  Ok (AcRes bus6 gen7 br6 x (r_f s) (r_eflag s) lm).

Variable solve : smat K -> list K -> result (option (list K)).
Variable ln : K -> K.

Definition pipsopf (p : dcopt) (lim : flow_lim) (baseMVA : K) (bus gen branch : list (list K))
    (o : acom) (cp : gcostp) : result acres :=
  '(Ybus, Yf, Yt) <- makeYbus cis baseMVA bus branch ;;
  x0 <- ac_start o bus ;;
  rate <- col RATE_A branch ;;
  let il := find (map limited rate) in
  Yfl <- rowsel Yf il ;;
  Ytl <- rowsel Yt il ;;
  let D := AcData baseMVA bus gen branch (c_gencost o) (c_ny o) cp in
  (* without rows linear_constraints returns no matrix *)
  let A := if nrows (c_A o) =? 0 then None else Some (c_A o) in
  s <- pips solve ln (ac_problem D lim Ybus Yfl Ytl il) (ac_options p) x0
         A (c_l o) (c_u o) (c_xmin o) (c_xmax o) ;;
  ac_update baseMVA bus gen branch Yf Yt il s.
End AcOpf.
