(** Fixed zonal reserves: the callbacks userfcn_reserves_ext2int, _formulation and _int2ext of toggle_reserves.py,
    within a DC optimal power flow (Model/RunOpf.v).  The formulation callback runs last in opf_setup.py (line 263), so
    its variables R stand where user variables would and its rows Pg_plus_R, Rreq where user rows would; a case with
    a matrix A of its own is outside the model.  Data whose sizes do not match only get a message in the code
    (lines 113-121); here they are outside the model.  Without an online unit in a zone the results have no
    variable R and the code raises a KeyError (line 245). *)
From Verif Require Export Model.RunOpf.

Section Reserves.
Context {K : Type} {F : Fld K}.
Local Open Scope nat_scope.

(** ppc['reserves']: zones (one row per zone, one column per unit), req, cost, qty *)
Record reserves := Reserves {
  rs_zones : list (list K); rs_req : list K; rs_cost : list K; rs_qty : option (list K) }.

Definition nonzero (a : K) : bool := negb (feqb a 0%K).
(** lines 104-107: units with an entry in some zone; for one zone the row itself, read as a mask *)
Definition rgens (ng0 : nat) (zones : list (list K)) : list bool :=
  map (fun j => existsb (fun z => nonzero (nth j z 0%K)) zones) (seq 0 ng0).

(** lines 124-136: values given for the units in zones only *)
Definition expand (ng0 : nat) (igr : list nat) (v : list K) : result (list K) :=
  if length v <? ng0 then scatter_checked (repeat 0%K ng0) igr v else Ok v.

(** the reserve data in internal order, with the indices of the units in zones *)
Record rint := RInt {
  ri_zones : list (list K); ri_cost : list K; ri_qty : option (list K); ri_igr : list nat }.

(** lines 94-151: external indices of the units in zones, and the internal data *)
Definition res_ext2int (od : order_of K) (ng0 : nat) (R : reserves) : result (list nat * rint) :=
  _ <- guard ((length (rs_zones R) =? length (rs_req R))
              && forallb (fun z => length z =? ng0) (rs_zones R)) OutOfModel ;;
  let m := rgens ng0 (rs_zones R) in
  let igr := find m in
  _ <- guard ((length (rs_cost R) =? ng0) || (length (rs_cost R) =? length igr)) OutOfModel ;;
  _ <- guard (match rs_qty R with Some v => length v =? length (rs_cost R) | None => true end) OutOfModel ;;
  cost <- expand ng0 igr (rs_cost R) ;;
  qty <- match rs_qty R with None => Ok None | Some v => w <- expand ng0 igr v ;; Ok (Some w) end ;;
  qty' <- match qty with None => Ok None | Some v => w <- e2i_single od OGen v ;; Ok (Some w) end ;;
  cost' <- e2i_single od OGen cost ;;
  zones' <- mapM (e2i_single od OGen) (rs_zones R) ;;
  m' <- e2i_single od OGen m ;;
  Ok (igr, RInt zones' cost' qty' (find m')).

(** lines 176-182: the upper bounds of the reserves *)
Definition rmax (baseMVA : K) (ramp : K) (qty : option K) : ext K :=
  let a := if nonzero ramp then EFin ramp else EPos in
  let b := match qty with
           | Some v => match a with EFin r => if fltb v r then EFin v else a | _ => EFin v end
           | None => a
           end in
  match b with EFin v => EFin (v / baseMVA)%K | e => e end.

(** lines 167-197: bounds, rows and cost coefficients *)
Definition res_formulation (baseMVA : K) (nb : nat) (gen : list (list K)) (req : list K) (ri : rint)
  : result (user (K := K) * list K) :=
  let igr := ri_igr ri in let ngr := length igr in let ng := length gen in
  let nrz := length (ri_zones ri) in
  rows <- gather gen igr ;;
  ramp <- col RAMP_10 rows ;;
  qty <- match ri_qty ri with
         | None => Ok (repeat None ngr)
         | Some v => w <- gather v igr ;; Ok (map Some w) end ;;
  if feqb baseMVA 0%K then Err NonFinite
  else
    let pu := map (fun a => a / baseMVA)%K in
    let zu := map2 (rmax baseMVA) ramp qty in
    Sg <- sparse (repeat 1%K ngr) (seq 0 ngr) igr ngr ng ;;
    Ar <- hstackm Sg (eyem ngr) ;;
    pmax <- col PMAX rows ;;
    c <- gather (ri_cost ri) igr ;;
    zr <- mapM (fun z => gather z igr) (ri_zones ri) ;;
    let Az := SM nrz ngr (flat_map (fun iz => zip3 (repeat (fst iz) ngr) (seq 0 ngr) (snd iz))
                            (combine (seq 0 nrz) zr)) in
    (* the rows over the variables Va, Pg, R *)
    A1 <- hstackm (zerom ngr nb) Ar ;;
    A2 <- hstackm (zerom nrz (nb + ng)) Az ;;
    A <- vstackm A1 A2 ;;
    Ok (User (Some A) (repeat ENeg ngr ++ map EFin (pu req)) (map EFin (pu pmax) ++ repeat EPos nrz)
          (repeat (EFin 0%K) ngr) zu,
        map (fun a => a * baseMVA)%K c).

(** line 197 and om.build_cost_params: the cost on R, the last variables *)
Definition res_costs (Cw : list K) (nx : nat) : costp (K := K) :=
  let n := length Cw in
  CostP (SM n nx (zip3 (seq 0 n) (seq (nx - n) n) (repeat 1%K n))) (zerom n n) Cw (repeat 0%K n) (repeat 1%K n).

(** results['reserves'] *)
Record rres := RRes {
  rr_zones : list (list K); rr_cost : list K; rr_qty : option (list K);
  rr_R : list K; rr_Rmin : list K; rr_Rmax : list (ext K);
  rr_mu_l : list K; rr_mu_u : list K; rr_mu_Pmax : list K; rr_prc : list K; rr_totalcost : K }.

Definition ext_scale (b : K) (e : ext K) : ext K := match e with EFin a => EFin (a * b)%K | i => i end.

(** lines 202-276.  [zl] and [zu] are the bounds of R (om.getv), [x], [ml], [mu] variables and multipliers of the
    bounds, [ll], [lu] those of the rows: R are the last variables, Pg_plus_R and Rreq the last rows *)
Definition res_int2ext (od : order_of K) (ng0 : nat) (baseMVA : K) (R : reserves) (igr0 : list nat) (ri : rint)
    (zl zu : list (ext K)) (Cw x ml mu ll lu : list K) : result rres :=
  let igr := ri_igr ri in let ngr := length igr in let ng := length (ri_cost ri) in
  let nrz := length (ri_zones ri) in
  let lastv := fun v : list K => slice (length v - ngr) (length v) v in
  (* lines 220-225 and 269-274 *)
  zones <- mapM (fun wz => i2e_single od OGen (fst wz) (snd wz)) (combine (ri_zones ri) (rs_zones R)) ;;
  let short := length (rs_cost R) <? ng0 in
  cost <- (if short then Ok (rs_cost R) else i2e_single od OGen (ri_cost ri) (rs_cost R)) ;;
  qty <- match ri_qty ri, rs_qty R with
         | Some w, Some v => if short then Ok (Some v) else q <- i2e_single od OGen w v ;; Ok (Some q)
         | _, _ => Ok None
         end ;;
  if feqb baseMVA 0%K then Err NonFinite
  else
    let pu := map (fun a => a / baseMVA)%K in
    let ext := fun v => w <- scatter_checked (repeat 0%K ng) igr v ;; i2e_single od OGen w (repeat 0%K ng0) in
    let exte := fun v => w <- scatter_checked (repeat (EFin 0%K) ng) igr v ;;
                         i2e_single od OGen w (repeat (EFin 0%K) ng0) in
    r <- ext (map (fun a => a * baseMVA)%K (lastv x)) ;;
    rmin <- mapM (fun e => match e with EFin a => Ok (a * baseMVA)%K | _ => Err NonFinite end) zl ;;
    rmin' <- ext rmin ;;
    rmax' <- exte (map (ext_scale baseMVA) zu) ;;
    mul <- ext (pu (lastv ml)) ;;
    muu <- ext (pu (lastv mu)) ;;
    let n := length lu in
    mup <- ext (pu (slice (n - nrz - ngr) (n - nrz) lu)) ;;
    let zp := slice (n - nrz) n ll in
    prc <- mapM (fun k =>
             ps <- mapM (fun zm => a <- get (fst zm) k ;; Ok (if nonzero a then snd zm else 0%K)) (combine zones zp) ;;
             Ok (lsum (fun a => a) ps / baseMVA)%K) igr0 ;;
    prc' <- scatter_checked (repeat 0%K ng0) igr0 prc ;;
    Ok (RRes zones cost qty r rmin' rmax' mul muu mup prc' (dotv Cw (lastv x))).

Variable argsort : list Z -> list nat.
Variable solve : smat K -> list K -> result (option (list K)).
Variable ln : K -> K.

(** runopf_w_res.py with PF_DC: results, reserves, objective, success *)
Definition dc_opf_res (ignore_ang : bool) (opts : dcopt) (baseMVA : K) (p : ppc_of K) (R : reserves)
  : result (ppc_of K * rres * K * bool) :=
  _ <- guard (match p_A p, p_N p with None, None => true | _, _ => false end) OutOfModel ;;
  q <- ext2int argsort (opf_columns p) ;;
  od <- of_option KeyError (p_order q) ;;
  let ng0 := length (p_gen p) in
  '(igr0, ri) <- res_ext2int od ng0 R ;;
  _ <- guard (negb (length (ri_igr ri) =? 0)) KeyError ;;
  '(U, Cw) <- res_formulation baseMVA (length (p_bus q)) (p_gen q) (rs_req R) ri ;;
  '(om, z, r) <- dc_solved solve ln ignore_ang opts baseMVA q U (res_costs Cw) ;;
  rr <- res_int2ext od ng0 baseMVA R igr0 ri (u_zl U) (u_zu U) Cw (z_x z) (m_lower (z_lmbda z)) (m_upper (z_lmbda z))
          (m_mu_l (z_lmbda z)) (m_mu_u (z_lmbda z)) ;;
  Ok (r, rr, z_f z, z_success z).
End Reserves.
