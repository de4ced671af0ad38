(** Callbacks of the AC optimal power flow: opf_costfcn.py, opf_consfcn.py, opf_hessfcn.py.
    The variables are Va, Vm, Pg, Qg, y, z in this order, so the positions vv["i1"], vv["iN"] of the
    OPF model are sums of the table sizes.  Tables are in internal numbering.  baseMVA is a Python
    float, as in all case files.  numpy's exp(1j * a) and abs are parameters.  The overwritten PG and
    QG columns of the caller's gen are not returned: every callback writes them before use. *)
From Verif Require Export Model.OpfLin.

Section OpfFcn.
Context {K : Type} {F : Fld K}.
Variables (cis : K -> cpx K) (cabs : cpx K -> K).
Local Open Scope nat_scope.

(** ** polycost.py:15-66, the definitions of Model/Cost.v for any field *)
Definition mapi {A B} (f : nat -> A -> B) (l : list A) : list B :=
  map (fun p => f (fst p) (snd p)) (combine (seq 0 (length l)) l).
Fixpoint pow (a : K) (n : nat) : K := match n with O => 1%K | S k => (a * pow a k)%K end.

Definition ncost_of (r : list K) : result nat :=
  q <- get r NCOST ;;
  if (ftrunc q <? 0)%Z then Err OutOfModel else Ok (Z.to_nat (ftrunc q)).

Definition coef_row (maxN : nat) (r : list K) : result (list K) :=
  q <- get r NCOST ;;
  n <- ncost_of r ;;
  if negb (feqb q (fofZ (Z.of_nat n))) then Ok (repeat 0%K maxN)
  else
    let vals := rev (slice COST (COST + n) r) in
    if length vals =? n then Ok (vals ++ repeat 0%K (maxN - n))
    else match vals with
         | [v] => Ok (repeat v n ++ repeat 0%K (maxN - n))
         | _ => Err ValueError
         end.

Fixpoint ders (ng maxN : nat) (ds : list nat) (w : nat) (c : list (list K)) : nat * list (list K) :=
  match ds with
  | [] => (w, c)
  | d :: ds' =>
      if 2 <=? w then
        let c1 := map (slice 1 (maxN - d + 1)) c in
        let c2 := map (mapi (fun j a =>
                    if (1 <=? j) && (j <? maxN - d) then (a * fofZ (Z.of_nat (j + 1)))%K else a)) c1 in
        ders ng maxN ds' (Nat.min w (maxN - d + 1) - 1) c2
      else (1, repeat [0%K] ng)
  end.

Definition eval_row (c : list K) (x : K) : K :=
  match c with
  | [] => 0%K
  | c0 :: cs => fold_left (fun f p => (f + snd p * pow x (fst p))%K) (combine (seq 1 (length cs)) cs) c0
  end.

Definition polycost (gencost : list (list K)) (Pg : list K) (der : nat) : result (list K) :=
  match gencost with
  | [] => Ok []
  | _ =>
      let ng := length Pg in
      ns <- mapM ncost_of gencost ;;
      let maxN := list_max ns in
      rows <- mapM (coef_row maxN) gencost ;;
      if ng <? length gencost then Err IndexError
      else
        let c := rows ++ repeat (repeat 0%K maxN) (ng - length gencost) in
        let '(w, c') := ders ng maxN (seq 1 der) maxN c in
        if w =? 0 then Ok [] else Ok (map2 eval_row c' Pg)
  end.

(** v * polycost(rows, vals, der): a float times the list [] that polycost returns for an empty table
    raises *)
Definition float_polycost (v : K) (rows : list (list K)) (vals : list K) (der : nat) : result (list K) :=
  match rows with
  | [] => Err TypeError
  | _ => c <- polycost rows vals der ;; Ok (map (rmul v) c)
  end.

(** totcost.py:29-50 on polynomial rows *)
Definition totcost_pol (rows : list (list K)) (vals : list K) : result (list K) :=
  match rows with
  | [] => Ok []
  | _ => c <- polycost rows vals 0 ;;
         scatter_checked (repeat 0%K (length rows)) (seq 0 (length rows)) c
  end.

(** ** data of the problem *)
(** the parameters of om.get_cost_params *)
Record gcostp := GCostP {
  g_N : smat K; g_H : smat K; g_Cw : list K; g_dd : list K; g_rh : list K; g_kk : list K; g_mm : list K }.
Record acdata := AcData {
  a_base : K; a_bus : list (list K); a_gen : list (list K); a_branch : list (list K);
  a_gencost : list (list K); a_ny : nat; a_cp : gcostp }.

Variable D : acdata.
Notation baseMVA := (a_base D).
Notation nb := (length (a_bus D)).
Notation ng := (length (a_gen D)).
Notation ny := (a_ny D).
Definition getVa (x : list K) : list K := slice 0 nb x.
Definition getVm (x : list K) : list K := slice nb (nb + nb) x.
Definition getPg (x : list K) : list K := slice (nb + nb) (nb + nb + ng) x.
Definition getQg (x : list K) : list K := slice (nb + nb + ng) (nb + nb + ng + ng) x.

(** N.nnz > 0 *)
Definition has_nz (N : smat K) : bool :=
  existsb (fun i => existsb (fun j => negb (feqb (at_ N i j) 0%K)) (seq 0 (ncols N))) (seq 0 (nrows N)).

(** opf_costfcn.py:77-94 and 115-116, the same as opf_hessfcn.py:122-144 *)
Record gterm := GTerm { gt_w : list K; gt_HwC : list K; gt_AA : smat K; gt_M : smat K; gt_QQ : smat K }.
Definition general (x : list K) : result gterm :=
  let cp := a_cp D in let N := g_N cp in let nw := nrows N in
  Nx <- mulv N x ;;
  r <- ewise rsub Nx (g_rh cp) ;;
  lt <- ewise (fun a k => fltb a (- k)%K) r (g_kk cp) ;;
  eq <- ewise (fun a k => feqb a 0%K && feqb k 0%K) r (g_kk cp) ;;
  gt <- ewise (fun a k => fltb k a) r (g_kk cp) ;;
  let iLT := find lt in let iEQ := find eq in let iGT := find gt in
  let iND := iLT ++ iEQ ++ iGT in
  let iL := find (map (fun d => feqb d (fofZ 1)) (g_dd cp)) in
  let iQ := find (map (fun d => feqb d (fofZ 2)) (g_dd cp)) in
  LL <- sparse (repeat 1%K (length iL)) iL iL nw nw ;;
  QQ <- sparse (repeat 1%K (length iQ)) iQ iQ nw nw ;;
  KB <- sparse (repeat 1%K (length iLT) ++ repeat 0%K (length iEQ) ++ repeat (ropp 1%K) (length iGT))
          iND iND nw nw ;;
  kbar <- mulv KB (g_kk cp) ;;
  rr <- ewise radd r kbar ;;
  mi <- gather (g_mm cp) iND ;;
  M <- sparse mi iND iND nw nw ;;
  diagrr <- sparse rr (seq 0 nw) (seq 0 nw) nw nw ;;
  Qr <- mulm QQ diagrr ;;
  LQ <- addm LL Qr ;;
  MLQ <- mulm M LQ ;;
  w <- mulv MLQ rr ;;
  Hw <- mulv (g_H cp) w ;;
  HwC <- ewise radd Hw (g_Cw cp) ;;
  NM <- mulm (transp N) M ;;
  Q2 <- mulm (mapm (rmul (fofZ 2)) QQ) diagrr ;;
  LQ2 <- addm LL Q2 ;;
  AA <- mulm NM LQ2 ;;
  Ok (GTerm w HwC AA M QQ).

(** ** opf_costfcn.py:37-140: cost and gradient *)
Definition opf_costfcn (x : list K) : result (K * list K) :=
  let cp := a_cp D in let nxyz := length x in
  m <- col MODEL (a_gencost D) ;;
  let ipol := find (map is_poly m) in
  let xx := map (fun a => a * baseMVA)%K (getPg x ++ getQg x) in
  rows <- gather (a_gencost D) ipol ;;
  (* any(ipol) tests the positions themselves *)
  f0 <- (if existsb (fun i => negb (i =? 0)) ipol
         then v <- gather xx ipol ;; c <- totcost_pol rows v ;; Ok (lsum (fun a => a) c)
         else Ok 0%K) ;;
  let i1y := nb + nb + ng + ng in
  cc <- sparse (repeat 1%K ny) (repeat 0 ny) (seq i1y ny) 1 nxyz ;;
  let ccost := if ny =? 0 then repeat 0%K nxyz else map (at_ cc 0) (seq 0 nxyz) in
  f1 <- (if ny =? 0 then Ok f0 else Ok (f0 + dotv ccost x)%K) ;;
  gt <- (if has_nz (g_N cp) then t <- general x ;; Ok (Some t) else Ok None) ;;
  f <- match gt with
       | None => Ok f1
       | Some t => wH <- mulv (transp (g_H cp)) (gt_w t) ;;
                   Ok (f1 + dotv wH (gt_w t) / fofZ 2 + dotv (g_Cw cp) (gt_w t))%K
       end ;;
  v <- gather xx ipol ;;
  d <- float_polycost baseMVA rows v 1 ;;
  df0 <- scatter_checked (repeat 0%K (2 * ng)) ipol d ;;
  df1 <- scatter_checked (repeat 0%K nxyz) (seq (nb + nb) ng) (slice 0 ng df0) ;;
  df2 <- scatter_checked df1 (seq (nb + nb + ng) ng) (slice ng (ng + ng) df0) ;;
  df3 <- ewise radd df2 ccost ;;
  df <- match gt with
        | None => Ok df3
        | Some t => u <- mulv (gt_AA t) (gt_HwC t) ;; ewise radd df3 u
        end ;;
  Ok (f, df).

(** 2 N' M QQ diag(HwC) N and AA H AA' *)
Definition general_hess (t : gterm) : result (smat K) :=
  let N := g_N (a_cp D) in let nw := nrows N in
  a1 <- mulm (gt_AA t) (g_H (a_cp D)) ;;
  a <- mulm a1 (transp (gt_AA t)) ;;
  b1 <- mulm (mapm (rmul (fofZ 2)) (transp N)) (gt_M t) ;;
  b2 <- mulm b1 (gt_QQ t) ;;
  dg <- sparse (gt_HwC t) (seq 0 nw) (seq 0 nw) nw nw ;;
  b3 <- mulm b2 dg ;;
  b <- mulm b3 N ;;
  addm a b.

(** second derivatives of the polynomial costs among [rows], zero for the others *)
Definition poly_hess (rows : list (list K)) (pg : list K) : result (list K) :=
  m <- col MODEL rows ;;
  let ipol := find (map is_poly m) in
  sel <- gather rows ipol ;;
  v <- gather pg ipol ;;
  d <- float_polycost (baseMVA * baseMVA)%K sel (map (fun a => a * baseMVA)%K v) 2 ;;
  scatter_checked (repeat 0%K ng) ipol d.
(** any(qcost): the truth value of a table row; [qcost] is a list of rows or the empty array *)
Definition any_rows (q : list (list K)) : result bool :=
  match q with
  | [] => Ok false
  | [] :: _ => Err OutOfModel
  | [a] :: _ => Err OutOfModel
  | _ :: _ => Err ValueError
  end.

(** the cost Hessian for given reactive cost rows; lines 142-165 of opf_costfcn.py and
    lines 89-146 of opf_hessfcn.py *)
Definition cost_hess (qrows : list (list K)) (x : list K) (gt : option gterm) : result (smat K) :=
  let nxyz := length x in
  pcost <- gather (a_gencost D) (seq 0 ng) ;;
  dp <- poly_hess pcost (getPg x) ;;
  q <- any_rows qrows ;;
  dq <- (if q then poly_hess qrows (getQg x) else Ok (repeat 0%K ng)) ;;
  let i := seq (nb + nb) ng ++ seq (nb + nb + ng) ng in
  d2f <- sparse (dp ++ dq) i i nxyz nxyz ;;
  match gt with
  | None => Ok d2f
  | Some t => g <- general_hess t ;; addm d2f g
  end.

(** ** opf_consfcn.py:57-180 *)
Inductive flow_lim := LimS | LimP | LimI.      (* OPF_FLOW_LIM is 1: LimP, 2: LimI, otherwise LimS *)

(** V = Vm * exp(1j * Va) *)
Definition voltage (x : list K) : result (list (cpx K)) := polar cis (getVm x) (getVa x).

(** the squared flow of one end minus the squared limit *)
Definition sq_flow (lim : flow_lim) (z : cpx K) : K :=
  match lim with LimP => (re z * re z)%K | _ => re (cmul z (conj z)) end.
Definition end_flow (lim : flow_lim) (f : list nat) (Yf : smat (cpx K)) (V : list (cpx K))
  : result (list (cpx K)) :=
  If <- mulv Yf V ;;
  match lim with
  | LimI => Ok If
  | _ => Vf <- gather V f ;; ewise (fun v i => cmul v (conj i)) Vf If
  end.
Definition real_part (M : smat (cpx K)) : smat (cpx K) := mapm (fun z => ofK (re z)) M.

(** a matrix in the first columns of a wider one *)
Definition widen (n : nat) (M : smat K) : smat K := SM (nrows M) n (ents M).

Definition opf_consfcn (lim : flow_lim) (Ybus Yf Yt : smat (cpx K)) (il : list nat) (x : list K)
  : result (list K * list K * option (smat K) * option (smat K)) :=
  let nxyz := length x in let nl2 := length il in
  gen1 <- setcol PG (map (fun a => a * baseMVA)%K (getPg x)) (a_gen D) ;;
  gen2 <- setcol QG (map (fun a => a * baseMVA)%K (getQg x)) gen1 ;;
  Sbus <- makeSbus baseMVA (a_bus D) gen2 ;;
  V <- voltage x ;;
  mis <- mismatch Ybus Sbus V ;;
  let g := map re mis ++ map im mis in
  br <- gather (a_branch D) il ;;
  f <- idxcol OutOfModel F_BUS br ;;
  t <- idxcol OutOfModel T_BUS br ;;
  rate <- col RATE_A br ;;
  (* an infinite limit, for a rating of zero, is not modelled; pipsopf_solver selects nonzero ones *)
  _ <- guard (negb (existsb (fun a => feqb a 0%K) rate)) OutOfModel ;;
  let flow_max := map (fun a => (a / baseMVA) * (a / baseMVA))%K rate in
  h <- (if nl2 =? 0 then Ok []
        else ff <- end_flow lim f Yf V ;;
             ft <- end_flow lim t Yt V ;;
             hf <- ewise (fun z m => sq_flow lim z - m)%K ff flow_max ;;
             ht <- ewise (fun z m => sq_flow lim z - m)%K ft flow_max ;;
             Ok (hf ++ ht)) ;;
  '(dVm, dVa) <- dSbus_dV cabs Ybus V ;;
  gbus <- idxcol ValueError GEN_BUS gen2 ;;
  negCg <- sparse (repeat (ropp 1%K) ng) gbus (seq 0 ng) nb ng ;;
  let blank := SM nb ng [] in
  p1 <- hstackm (realm dVa) (realm dVm) ;; p2 <- hstackm p1 negCg ;; p <- hstackm p2 blank ;;
  q1 <- hstackm (imagm dVa) (imagm dVm) ;; q2 <- hstackm q1 blank ;; q <- hstackm q2 negCg ;;
  pq <- vstackm p q ;;
  let dg := transp (widen nxyz pq) in
  if nl2 =? 0 then Ok (h, g, None, Some dg)
  else
    '(fa, fm, ta, tm, Ff, Ft) <-
      match lim with LimI => dIbr_dV cabs Yf Yt V | _ => dSbr_dV cabs br Yf Yt V end ;;
    '(da, dm, ea, em) <-
      match lim with
      | LimP => dAbr_dV (real_part fa) (real_part fm) (real_part ta) (real_part tm)
                  (map (fun z => ofK (re z)) Ff) (map (fun z => ofK (re z)) Ft)
      | _ => dAbr_dV fa fm ta tm Ff Ft
      end ;;
    hf <- hstackm da dm ;; ht <- hstackm ea em ;;
    hh <- vstackm hf ht ;;
    Ok (h, g, Some (transp (widen nxyz hh)), Some dg).

(** ** opf_hessfcn.py:58-235 *)
Definition block4 {L} {R : Rng L} (a b c d : smat L) : result (smat L) :=
  t <- hstackm a b ;; u <- hstackm c d ;; vstackm t u.
(** a matrix in the upper left corner of an n by n matrix of zeros *)
Definition corner (n : nat) (M : smat K) : smat K := SM n n (ents M).

Definition opf_hessfcn (lim : flow_lim) (Ybus Yf Yt : smat (cpx K)) (il : list nat)
    (x lam mu : list K) (cost_mult : K) : result (smat K) :=
  let nxyz := length x in let nl2 := length il in
  _ <- setcol PG (map (fun a => a * baseMVA)%K (getPg x)) (a_gen D) ;;
  V <- voltage x ;;
  qcost <- (if ng <? length (a_gencost D) then gather (a_gencost D) (seq ng ng) else Ok []) ;;
  gt <- (if has_nz (g_N (a_cp D)) then t <- general x ;; Ok (Some t) else Ok None) ;;
  d2f0 <- cost_hess qcost x gt ;;
  let d2f := mapm (fun a => a * cost_mult)%K d2f0 in
  let nlam := Nat.div (length lam) 2 in
  let lamP := map ofK (firstn nlam lam) in
  let lamQ := map ofK (slice nlam (nlam + nlam) lam) in
  '(paa, pav, pva, pvv) <- d2Sbus_dV2 cabs Ybus V lamP ;;
  '(qaa, qav, qva, qvv) <- d2Sbus_dV2 cabs Ybus V lamQ ;;
  GP <- block4 paa pav pva pvv ;;
  GQ <- block4 qaa qav qva qvv ;;
  G <- addm (realm GP) (imagm GQ) ;;
  let nmu := Nat.div (length mu) 2 in
  let muF := map ofK (firstn nmu mu) in
  let muT := map ofK (slice nmu (nmu + nmu) mu) in
  '(f4, t4) <-
    match lim with
    | LimI =>
        '(fa, fm, ta, tm, If, It) <- dIbr_dV cabs Yf Yt V ;;
        f4 <- d2AIbr_dV2 cabs fa fm If Yf V muF ;;
        t4 <- d2AIbr_dV2 cabs ta tm It Yt V muT ;;
        Ok (f4, t4)
    | _ =>
        br <- gather (a_branch D) il ;;
        f <- idxcol OutOfModel F_BUS br ;;
        t <- idxcol OutOfModel T_BUS br ;;
        Cf <- sparse (repeat (ofK 1%K) nl2) (seq 0 nl2) f nl2 nb ;;
        Ct <- sparse (repeat (ofK 1%K) nl2) (seq 0 nl2) t nl2 nb ;;
        '(fa, fm, ta, tm, Sf, St_) <- dSbr_dV cabs br Yf Yt V ;;
        let r := match lim with LimP => real_part | _ => fun M => M end in
        let rv := match lim with LimP => map (fun z => ofK (re z)) | _ => fun v => v end in
        f4 <- d2ASbr_dV2 cabs (r fa) (r fm) (rv Sf) Cf Yf V muF ;;
        t4 <- d2ASbr_dV2 cabs (r ta) (r tm) (rv St_) Ct Yt V muT ;;
        Ok (f4, t4)
    end ;;
  let '(faa, fav, fva, fvv) := f4 in let '(taa, tav, tva, tvv) := t4 in
  HF <- block4 faa fav fva fvv ;;
  HT <- block4 taa tav tva tvv ;;
  Hm <- addm HF HT ;;
  s1 <- addm d2f (corner nxyz G) ;;
  addm s1 (corner nxyz Hm).
End OpfFcn.
