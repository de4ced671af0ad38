(** Linear constraints of the optimal power flow: makeAy.py, makeAang.py, isload.py, makeAvl.py,
    hasPQcap.py, makeApq.py.  Messages printed about doubtful data are left out.  numpy's sin, cos,
    arctan2 and the norm of a pair are parameters. *)
From Verif Require Export Model.Pips.

Section OpfLin.
Context {K : Type} {F : Fld K}.
Local Open Scope nat_scope.

(** idx_cost.py: PW_LINEAR, POLYNOMIAL *)
Definition PWL : K := fofZ 1.
Definition POLY : K := fofZ 2.
Definition is_pwl (a : K) : bool := feqb a PWL.
Definition is_poly (a : K) : bool := feqb a POLY.

(** ** makeAy.py:15-99 *)

(** lines 68-70: the breakpoints of one row, x values in per unit.  A row without points or too
    short for its number of points is not modelled. *)
Definition points (baseMVA : K) (r : list K) : result (list (K * K)) :=
  q <- get r NCOST ;;
  ns <- to_idx OutOfModel q ;;
  if ns =? 0 then Err OutOfModel
  else if feqb baseMVA 0%K then Err NonFinite
  else mapM (fun k => p <- of_option OutOfModel (nth_error r (COST + 2 * k)) ;;
                      c <- of_option OutOfModel (nth_error r (COST + 1 + 2 * k)) ;;
                      Ok (p / baseMVA, c)%K) (seq 0 ns).

(** lines 71-74: slope and right hand side of the segment between two points *)
Definition segment (s : (K * K) * (K * K)) : result (K * K) :=
  let '((p1, c1), (p2, c2)) := s in
  if feqb (p2 - p1)%K 0%K then Err NonFinite
  else let m := ((c2 - c1) / (p2 - p1))%K in Ok (m, (m * p1 - c1)%K).

(** lines 67-97, both loops at once: state k, entries, right hand sides; [j] numbers the rows [i]
    with a piecewise-linear cost.  The columns of the y variables are not meant to be addressed by
    [sidx]. *)
Definition sidx (ng pgbas qgbas i : nat) : nat :=
  if ng <? i then qgbas + (i - ng) - 1 else pgbas + i - 1.
Definition ycost (baseMVA : K) (ng : nat) (gencost : list (list K)) (pgbas qgbas ybas : nat)
    (st : nat * list (entry K) * list K) (ji : nat * nat)
  : result (nat * list (entry K) * list K) :=
  let '(k, es, by_) := st in let (j, i) := ji in
  r <- get gencost i ;;
  pts <- points baseMVA r ;;
  seg <- mapM segment (combine pts (tl pts)) ;;
  let rows := seq k (length seg) in
  let s := sidx ng pgbas qgbas i in
  if s <? ybas - 1
  then Ok (k + length seg,
           es ++ map2 (fun kk mb => Ent kk s (fst mb)) rows seg
              ++ map (fun kk => Ent kk (ybas + j - 1) (ropp 1)%K) rows,
           by_ ++ map snd seg)
  else Err OutOfModel.

Definition makeAy (baseMVA : K) (ng : nat) (gencost : list (list K)) (pgbas qgbas ybas : nat)
  : result (smat K * list K) :=
  m <- col MODEL gencost ;;
  let iy := find (map is_pwl m) in
  let ny := length iy in
  if ny =? 0 then Ok (SM 0 (ybas + ny - 1) [], [])
  else '(k, es, by_) <- foldM (ycost baseMVA ng gencost pgbas qgbas ybas)
                          (combine (seq 0 ny) iy) (0, [], []) ;;
       Ok (SM k (ybas + ny - 1) es, by_).

(** ** makeAang.py:16-60 *)
Definition ang_limited (lo hi : K) : bool :=
  (negb (feqb lo 0%K) && fltb (fofZ (-360)) lo) || (negb (feqb hi 0%K) && fltb hi (fofZ 360)).
Definition ang_bound (d : ext K) (a : K) : ext K :=
  if feqb a 0%K then d else EFin (a * fpi / fofZ 180)%K.

Definition makeAang (ignore : bool) (branch : list (list K)) (nb : nat)
  : result (smat K * list (ext K) * list (ext K) * list nat) :=
  if ignore then Ok (SM 0 nb [], [], [], [])
  else
    lo <- col ANGMIN branch ;;
    hi <- col ANGMAX branch ;;
    let iang := find (map2 ang_limited lo hi) in
    let nang := length iang in
    rows <- gather branch iang ;;
    if nang =? 0 then Ok (SM 0 nb [], [], [], iang)
    else
      f <- idxcol ValueError F_BUS rows ;;
      t <- idxcol ValueError T_BUS rows ;;
      A <- sparse (repeat 1%K nang ++ repeat (ropp 1%K) nang) (seq 0 nang ++ seq 0 nang)
             (f ++ t) nang nb ;;
      l <- col ANGMIN rows ;;
      h <- col ANGMAX rows ;;
      Ok (A, map (ang_bound ENeg) l, map (ang_bound EPos) h, iang).

(** ** isload.py:12-22 *)
Definition isload (g : list K) : result bool :=
  lo <- get g PMIN ;; hi <- get g PMAX ;; Ok (fltb lo 0%K && feqb hi 0%K).

(** ** makeAvl.py:19-84 *)
Section Avl.
Variables (sin_ cos_ : K -> K) (atan2 : K -> K -> K).

Definition makeAvl (baseMVA : K) (gen : list (list K))
  : result (smat K * list (ext K) * list (ext K) * list nat) :=
  let ng := length gen in
  if feqb baseMVA 0%K then Err NonFinite
  else
    let pu := map (fun a => a / baseMVA)%K in
    pmin <- col PMIN gen ;;
    qmin <- col QMIN gen ;;
    qmax <- col QMAX gen ;;
    ld <- mapM isload gen ;;
    let nz := fun a : K => negb (feqb a 0%K) in
    let ivl := find (map2 (fun (b : bool) q => b && q) ld
                       (map2 (fun l h => nz l || nz h) (pu qmin) (pu qmax))) in
    let nvl := length ivl in
    xx <- gather (pu pmin) ivl ;;
    ql <- gather (pu qmin) ivl ;;
    qh <- gather (pu qmax) ivl ;;
    (* (Qmin == 0) * Qmax + (Qmax == 0) * Qmin *)
    let yy := map2 (fun l h => (if feqb l 0%K then h else 0) + (if feqb h 0%K then l else 0))%K ql qh in
    let th := map2 atan2 yy xx in
    A <- sparse (map sin_ th ++ map (fun a => - cos_ a)%K th) (seq 0 nvl ++ seq 0 nvl)
           (ivl ++ map (fun i => i + ng) ivl) nvl (2 * ng) ;;
    Ok (A, repeat (EFin 0%K) nvl, repeat (EFin 0%K) nvl, ivl).
End Avl.

(** ** hasPQcap.py:15-63 *)
Inductive hilo := Upper | Lower | Both.

(** value at PMAX of the line through (PC1, a) and (PC2, b) *)
Definition edge_at_pmax (g : list K) (a b : nat) : result K :=
  q1 <- get g a ;; q2 <- get g b ;; p1 <- get g PC1 ;; p2 <- get g PC2 ;; pm <- get g PMAX ;;
  Ok (q1 + (pm - p1) * (q2 - q1) / (p2 - p1))%K.

Definition hasPQcap (h : hilo) (g : list K) : result bool :=
  p1 <- get g PC1 ;; p2 <- get g PC2 ;;
  if feqb p1 p2 then Ok false
  else
    lo <- match h with
          | Upper => Ok false
          | _ => q <- edge_at_pmax g QC1MIN QC2MIN ;; m <- get g QMIN ;; Ok (fltb m q)
          end ;;
    up <- match h with
          | Lower => Ok false
          | _ => q <- edge_at_pmax g QC1MAX QC2MAX ;; m <- get g QMAX ;; Ok (fltb q m)
          end ;;
    Ok (lo || up).

(** ** makeApq.py:17-96 *)
Section Apq.
Variable norm2 : K -> K -> K.

(** lines 57-64: normalised coefficients and right hand side of an edge, (h0, h1, ub) *)
Definition norm_edge (h0 h1 ub : K) : result (K * K * K) :=
  let t := norm2 h0 h1 in
  if feqb t 0%K then Err NonFinite else Ok (h0 / t, h1 / t, ub / t)%K.
Definition upper_edge (g : list K) : result (K * K * K) :=
  a <- get g QC1MAX ;; b <- get g QC2MAX ;; p1 <- get g PC1 ;; p2 <- get g PC2 ;;
  let h0 := (a - b)%K in let h1 := (p2 - p1)%K in norm_edge h0 h1 (h0 * p1 + h1 * a)%K.
Definition lower_edge (g : list K) : result (K * K * K) :=
  a <- get g QC1MIN ;; b <- get g QC2MIN ;; p1 <- get g PC1 ;; p2 <- get g PC2 ;;
  let h0 := (b - a)%K in let h1 := (p1 - p2)%K in norm_edge h0 h1 (h0 * p1 + h1 * a)%K.

Definition edge_rows (baseMVA : K) (ng : nat) (gen : list (list K)) (idx : list nat)
    (edge : list K -> result (K * K * K)) : result (smat K * list K) :=
  let n := length idx in
  rows <- gather gen idx ;;
  d <- mapM edge rows ;;
  A <- sparse (map (fun t => fst (fst t)) d ++ map (fun t => snd (fst t)) d)
         (seq 0 n ++ seq 0 n) (idx ++ map (fun i => i + ng) idx) n (2 * ng) ;;
  if (negb (n =? 0)) && feqb baseMVA 0%K then Err NonFinite
  else Ok (A, map (fun t => snd t / baseMVA)%K d).

(** without the dict of coefficients, only Apqh, ubpqh, Apql, ubpql, ipqh, ipql *)
Definition makeApq (baseMVA : K) (gen : list (list K))
  : result (smat K * list K * (smat K * list K) * (list nat * list nat)) :=
  let ng := length gen in
  up <- mapM (hasPQcap Upper) gen ;;
  lo <- mapM (hasPQcap Lower) gen ;;
  let ipqh := find up in let ipql := find lo in
  '(Ah, uh) <- edge_rows baseMVA ng gen ipqh upper_edge ;;
  '(Al, ul) <- edge_rows baseMVA ng gen ipql lower_edge ;;
  Ok (Ah, uh, (Al, ul), (ipqh, ipql)).
End Apq.
End OpfLin.
