(** AC network matrices: makeYbus.py, makeB.py.  numpy's exp(1j * a) is the parameter [cis].
    Divisions by zero are [Err NonFinite]. *)
From Verif Require Export Model.Network.

Section AcNet.
Context {K : Type} {F : Fld K}.
Variable cis : K -> cpx K.
Local Open Scope nat_scope.

Definition ceqb (z w : cpx K) : bool := feqb (re z) (re w) && feqb (im z) (im w).
Definition c0 : cpx K := Cx 0%K 0%K.

(** u / v elementwise for complex vectors *)
Definition cvdiv (u v : list (cpx K)) : result (list (cpx K)) :=
  if negb (length u =? length v) then Err ValueError
  else if existsb (fun b => feqb (nrm2 b) 0%K) v then Err NonFinite
  else Ok (map2 cdiv u v).

(** makeYbus.py:17-81; non-consecutive bus numbers only warn (lines 36-37) *)
Definition makeYbus (baseMVA : K) (bus branch : list (list K))
  : result (smat (cpx K) * smat (cpx K) * smat (cpx K)) :=
  let nb := length bus in let nl := length branch in
  _ <- col BUS_I bus ;;
  stat <- col BR_STATUS branch ;;                                    (* line 45 *)
  r <- col BR_R branch ;; x <- col BR_X branch ;;
  Ys <- cvdiv (map ofK stat) (map2 Cx r x) ;;                        (* line 46 *)
  b <- col BR_B branch ;;
  let Bc := map2 rmul stat b in                                      (* line 47 *)
  taps <- col TAP branch ;; shift <- col SHIFT branch ;;
  let tap := map2 (fun a s => cmul (ofK (if feqb a 0%K then 1%K else a))
                                   (cis (fpi / fofZ 180 * s)%K)) taps shift in  (* 48-51 *)
  let Ytt := map2 (fun y b => cadd y (jK (b / fofZ 2)%K)) Ys Bc in   (* line 53 *)
  Yff <- cvdiv Ytt (map (fun t => cmul t (conj t)) tap) ;;
  Yft <- cvdiv (map copp Ys) (map conj tap) ;;
  Ytf <- cvdiv (map copp Ys) tap ;;
  gs <- col GS bus ;; bs <- col BS bus ;;
  Ysh <- cvdiv (map2 Cx gs bs) (repeat (ofK baseMVA) nb) ;;          (* line 64 *)
  f <- idxcol ValueError F_BUS branch ;;
  t <- idxcol ValueError T_BUS branch ;;
  Cf <- sparse (repeat (ofK 1%K) nl) (seq 0 nl) f nl nb ;;
  Ct <- sparse (repeat (ofK 1%K) nl) (seq 0 nl) t nl nb ;;
  let i := seq 0 nl ++ seq 0 nl in
  Yf <- sparse (Yff ++ Yft) i (f ++ t) nl nb ;;
  Yt <- sparse (Ytf ++ Ytt) i (f ++ t) nl nb ;;
  A <- mulm (transp Cf) Yf ;;
  B <- mulm (transp Ct) Yt ;;
  S <- sparse Ysh (seq 0 nb) (seq 0 nb) nb nb ;;
  AB <- addm A B ;;
  Ybus <- addm AB S ;;
  Ok (Ybus, Yf, Yt).

(** -1 * M.imag *)
Definition neg_imag (M : smat (cpx K)) : smat K :=
  SM (nrows M) (ncols M) (map (fun e => Ent (erow e) (ecol e) (- im (ev e))%K) (ents M)).

(** makeB.py:16-48 *)
Definition makeB (baseMVA : K) (bus branch : list (list K)) (alg : Z)
  : result (smat K * smat K) :=
  let nb := length bus in let nl := length branch in
  tbus <- setcol BS (repeat 0%K nb) bus ;;
  t1 <- setcol BR_B (repeat 0%K nl) branch ;;
  t2 <- setcol TAP (repeat 1%K nl) t1 ;;
  t3 <- (if (alg =? 2)%Z then setcol BR_R (repeat 0%K nl) t2 else Ok t2) ;;
  '(Yp, _, _) <- makeYbus baseMVA tbus t3 ;;
  u1 <- setcol SHIFT (repeat 0%K nl) branch ;;
  u2 <- (if (alg =? 3)%Z then setcol BR_R (repeat 0%K nl) u1 else Ok u1) ;;
  '(Ypp, _, _) <- makeYbus baseMVA bus u2 ;;
  Ok (neg_imag Yp, neg_imag Ypp).
End AcNet.
