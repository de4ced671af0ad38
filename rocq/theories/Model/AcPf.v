(** AC power flow: newtonpf.py, gausspf.py, fdpf.py, pfsoln.py and the AC part of runpf.py.
    numpy's exp(1j * a), abs and angle are the parameters [cis], [cabs], [cang]; the linear solvers
    are oracles.  Options are passed as tolerance and iteration limit; progress output is left out.
    numpy arrays updated in place are returned as new values. *)
From Verif Require Export Model.Derivs.

Section AcPf.
Context {K : Type} {F : Fld K}.
Variables (cis : K -> cpx K) (cabs cang : cpx K -> K).
Variable solve : list (list K) -> list K -> result (list K).
(** scipy's splu: may raise, otherwise gives a solve function *)
Variable splu : list (list K) -> result (list K -> result (list K)).
Local Open Scope nat_scope.

Definition fmax (a b : K) : K := if fltb a b then b else a.
(** linalg.norm(v, inf): no identity for the maximum of an empty vector *)
Definition norm_inf (v : list K) : result K :=
  match v with
  | [] => Err ValueError
  | a :: t => Ok (fold_left (fun m x => fmax m (fabs x)) t (fabs a))
  end.

(** V * conj(Ybus * V) - Sbus *)
Definition mismatch (Ybus : smat (cpx K)) (Sbus V : list (cpx K)) : result (list (cpx K)) :=
  I <- mulv Ybus V ;;
  s <- ewise (fun v i => cmul v (conj i)) V I ;;
  ewise csub s Sbus.

(** r_[mis[pv].real, mis[pq].real, mis[pq].imag] *)
Definition residual (mis : list (cpx K)) (pv pq : list nat) : result (list K) :=
  a <- gather mis pv ;;
  b <- gather mis pq ;;
  Ok (map re a ++ map re b ++ map im b).

(** v[idx] = v[idx] + d *)
Definition add_at (v : list K) (idx : list nat) (d : list K) : result (list K) :=
  old <- gather v idx ;;
  new <- ewise radd old d ;;
  scatter_checked v idx new.

Definition polar (Vm Va : list K) : result (list (cpx K)) :=
  ewise (fun m a => cmul (ofK m) (cis a)) Vm Va.

(** ** newtonpf.py:19-131 *)

(** lines 88-104: the Jacobian by rows *)
Definition jacobian (Ybus : smat (cpx K)) (V : list (cpx K)) (pv pq : list nat)
  : result (list (list K)) :=
  '(dS_dVm, dS_dVa) <- dSbus_dV cabs Ybus V ;;
  let pvpq := pv ++ pq in
  Ok (map (fun i => map (fun j => re (at_ dS_dVa i j)) pvpq ++
                    map (fun j => re (at_ dS_dVm i j)) pq) pvpq ++
      map (fun i => map (fun j => im (at_ dS_dVa i j)) pvpq ++
                    map (fun j => im (at_ dS_dVm i j)) pq) pq).

(** lines 81-123: one iteration, from V, Va, Vm and F to the new ones *)
Definition newton_step (Ybus : smat (cpx K)) (Sbus : list (cpx K)) (pv pq : list nat)
    (s : list (cpx K) * list K * list K * list K)
  : result (list (cpx K) * list K * list K * list K) :=
  let '(V, Va, Vm, Fx) := s in
  let npv := length pv in let npq := length pq in
  J <- jacobian Ybus V pv pq ;;
  x <- solve J Fx ;;
  let dx := map ropp x in
  Va1 <- (if npv =? 0 then Ok Va else add_at Va pv (slice 0 npv dx)) ;;
  Va2 <- (if npq =? 0 then Ok Va1 else add_at Va1 pq (slice npv (npv + npq) dx)) ;;
  Vm2 <- (if npq =? 0 then Ok Vm
          else add_at Vm pq (slice (npv + npq) (npv + npq + npq) dx)) ;;
  V' <- polar Vm2 Va2 ;;
  mis <- mismatch Ybus Sbus V' ;;
  Fx' <- residual mis pv pq ;;
  Ok (V', map cang V', map cabs V', Fx').

(** the while loop; [fuel] is max_it - i *)
Fixpoint newton_loop (Ybus : smat (cpx K)) (Sbus : list (cpx K)) (pv pq : list nat) (tol : K)
    (fuel i : nat) (s : list (cpx K) * list K * list K * list K)
  : result (list (cpx K) * bool * nat) :=
  let '(V, _, _, Fx) := s in
  normF <- norm_inf Fx ;;
  if fltb normF tol then Ok (V, true, i)
  else match fuel with
       | 0 => Ok (V, false, i)
       | S k => s' <- newton_step Ybus Sbus pv pq s ;;
                newton_loop Ybus Sbus pv pq tol k (S i) s'
       end.

Definition newtonpf (Ybus : smat (cpx K)) (Sbus V0 : list (cpx K)) (pv pq : list nat)
    (tol : K) (max_it : nat) : result (list (cpx K) * bool * nat) :=
  mis <- mismatch Ybus Sbus V0 ;;
  Fx <- residual mis pv pq ;;
  newton_loop Ybus Sbus pv pq tol max_it 0 (V0, map cang V0, map cabs V0, Fx).

(** ** gausspf.py:15-112.  The state holds V and Sbus: the code overwrites the reactive part of the
    caller's Sbus at PV buses. *)
Definition czero (z : cpx K) : bool := feqb (nrm2 z) 0%K.

(** V[k] + (conj(Sbus[k] / V[k]) - Ybus[k, :] * V) / Ybus[k, k] *)
Definition gs_update (Ybus : smat (cpx K)) (Sbus V : list (cpx K)) (k : nat)
  : result (list (cpx K)) :=
  s <- get Sbus k ;;
  v <- get V k ;;
  I <- mulv Ybus V ;;
  i <- get I k ;;
  let y := at_ Ybus k k in
  if czero v || czero y then Err NonFinite
  else set_checked V k (cadd v (cdiv (csub (conj (cdiv s v)) i) y)).

(** lines 80-82 *)
Definition gs_pq (Ybus : smat (cpx K)) (Sbus : list (cpx K)) (V : list (cpx K)) (k : nat)
  : result (list (cpx K)) := gs_update Ybus Sbus V k.

(** lines 86-90 *)
Definition gs_pv (Ybus : smat (cpx K)) (st : list (cpx K) * list (cpx K)) (k : nat)
  : result (list (cpx K) * list (cpx K)) :=
  let '(V, Sbus) := st in
  v <- get V k ;;
  I <- mulv Ybus V ;;
  i <- get I k ;;
  s <- get Sbus k ;;
  Sbus' <- set_checked Sbus k (Cx (re s) (im (cmul v (conj i)))) ;;
  V' <- gs_update Ybus Sbus' V k ;;
  Ok (V', Sbus').

(** line 92: V[pv] = Vm[pv] * V[pv] / abs(V[pv]) *)
Definition gs_scale (Vm : list K) (V : list (cpx K)) (pv : list nat) : result (list (cpx K)) :=
  m <- gather Vm pv ;;
  v <- gather V pv ;;
  if existsb (fun z => feqb (cabs z) 0%K) v then Err NonFinite
  else scatter_checked V pv
         (map2 (fun m z => cdiv (cmul (ofK m) z) (ofK (cabs z))) m v).

Definition gauss_step (Ybus : smat (cpx K)) (Vm : list K) (pv pq : list nat)
    (st : list (cpx K) * list (cpx K)) : result (list (cpx K) * list (cpx K)) :=
  let '(V, Sbus) := st in
  V1 <- foldM (gs_pq Ybus Sbus) pq V ;;
  if length pv =? 0 then Ok (V1, Sbus)
  else '(V2, Sbus2) <- foldM (gs_pv Ybus) pv (V1, Sbus) ;;
       V3 <- gs_scale Vm V2 pv ;;
       Ok (V3, Sbus2).

Fixpoint gauss_loop (Ybus : smat (cpx K)) (Vm : list K) (pv pq : list nat) (tol : K)
    (fuel i : nat) (st : list (cpx K) * list (cpx K)) : result (list (cpx K) * bool * nat) :=
  let '(V, Sbus) := st in
  mis <- mismatch Ybus Sbus V ;;
  Fx <- residual mis pv pq ;;
  normF <- norm_inf Fx ;;
  if fltb normF tol then Ok (V, true, i)
  else match fuel with
       | 0 => Ok (V, false, i)
       | S k => st' <- gauss_step Ybus Vm pv pq st ;;
                gauss_loop Ybus Vm pv pq tol k (S i) st'
       end.

Definition gausspf (Ybus : smat (cpx K)) (Sbus V0 : list (cpx K)) (pv pq : list nat)
    (tol : K) (max_it : nat) : result (list (cpx K) * bool * nat) :=
  gauss_loop Ybus (map cabs V0) pv pq tol max_it 0 (V0, Sbus).

(** ** fdpf.py:19-143 *)

(** mis = (V * conj(Ybus * V) - Sbus) / Vm; P = mis[pvpq].real; Q = mis[pq].imag *)
Definition fd_mismatch (Ybus : smat (cpx K)) (Sbus V : list (cpx K)) (Vm : list K)
    (pv pq : list nat) : result (list K * list K) :=
  mis <- mismatch Ybus Sbus V ;;
  m <- cvdiv mis (map ofK Vm) ;;
  a <- gather m (pv ++ pq) ;;
  b <- gather m pq ;;
  Ok (map re a, map im b).

Definition fd_test (tol : K) (P Q : list K) : result bool :=
  normP <- norm_inf P ;;
  normQ <- norm_inf Q ;;
  Ok (fltb normP tol && fltb normQ tol).

Fixpoint fd_loop (Ybus : smat (cpx K)) (Sbus : list (cpx K)) (pv pq : list nat) (tol : K)
    (solveP solveQ : list K -> result (list K)) (fuel i : nat)
    (V : list (cpx K)) (Va Vm P Q : list K) : result (list (cpx K) * bool * nat) :=
  match fuel with
  | 0 => Ok (V, false, i)
  | S k =>
      x <- solveP P ;;
      Va1 <- add_at Va (pv ++ pq) (map ropp x) ;;
      V1 <- polar Vm Va1 ;;
      '(P1, Q1) <- fd_mismatch Ybus Sbus V1 Vm pv pq ;;
      c1 <- fd_test tol P1 Q1 ;;
      if (c1 : bool) then Ok (V1, true, S i)
      else
        y <- solveQ Q1 ;;
        Vm2 <- add_at Vm pq (map ropp y) ;;
        V2 <- polar Vm2 Va1 ;;
        '(P2, Q2) <- fd_mismatch Ybus Sbus V2 Vm2 pv pq ;;
        c2 <- fd_test tol P2 Q2 ;;
        if (c2 : bool) then Ok (V2, true, S i)
        else fd_loop Ybus Sbus pv pq tol solveP solveQ k (S i) V2 Va1 Vm2 P2 Q2
  end.

Definition fdpf (Ybus : smat (cpx K)) (Sbus V0 : list (cpx K)) (Bp Bpp : smat K)
    (pv pq : list nat) (tol : K) (max_it : nat) : result (list (cpx K) * bool * nat) :=
  let Va := map cang V0 in let Vm := map cabs V0 in
  '(P, Q) <- fd_mismatch Ybus Sbus V0 Vm pv pq ;;
  c <- fd_test tol P Q ;;
  solveP <- splu (submat Bp (pv ++ pq) (pv ++ pq)) ;;
  solveQ <- splu (submat Bpp pq pq) ;;
  if (c : bool) then Ok (V0, true, 0)
  else fd_loop Ybus Sbus pv pq tol solveP solveQ max_it 0 V0 Va Vm P Q.

(** ** pfsoln.py:20-99 *)

Definition EPS : K := (fofZ 1 / fofZ (2 ^ 52))%K.   (* finfo(float).eps *)

(** t[rows, j] = vals *)
Definition set_rows (t : list (list K)) (rows : list nat) (j : nat) (vals : list K)
  : result (list (list K)) :=
  old <- gather t rows ;;
  new <- setcol j vals old ;;
  scatter_checked t rows new.

(** lines 56-79: sharing out the reactive power [q0] of the in-service generators *)
Definition share_q (nb : nat) (gbus : list nat) (qmin qmax q0 : list K) : result (list K) :=
  let n := length gbus in
  Cg <- sparse (repeat 1%K n) (seq 0 n) gbus n nb ;;
  cnt <- mulv (transp Cg) (repeat 1%K n) ;;
  ngg <- mulv Cg cnt ;;
  q1 <- vdiv q0 ngg ;;
  Cmin <- sparse qmin (seq 0 n) gbus n nb ;;
  Cmax <- sparse qmax (seq 0 n) gbus n nb ;;
  Qg_tot <- mulv (transp Cg) q1 ;;
  Qg_min <- mulv (transp Cmin) (repeat 1%K n) ;;
  Qg_max <- mulv (transp Cmax) (repeat 1%K n) ;;
  lo <- mulv Cg Qg_min ;;
  hi <- mulv Cg Qg_max ;;
  num <- ewise rsub Qg_tot Qg_min ;;
  rng <- ewise rsub Qg_max Qg_min ;;
  ratio <- vdiv num (map (fun r => r + EPS)%K rng) ;;
  cr <- mulv Cg ratio ;;
  w <- ewise rsub qmax qmin ;;
  let prop := map2 radd qmin (map2 rmul cr w) in
  Ok (map2 (fun z p => if (fst z : bool) then snd z else p)
        (combine (map2 feqb lo hi) q1) prop).

(** lines 83-92: one reference bus *)
Definition slack_step (baseMVA : K) (bus : list (list K)) (on gbus : list nat)
    (Sbus : list (cpx K)) (gen : list (list K)) (r : nat) : result (list (list K)) :=
  match find (map (fun b => b =? r) gbus) with
  | [] => Err IndexError
  | k0 :: others =>
      s <- get Sbus k0 ;;
      b <- get bus r ;;
      pd <- get b PD ;;
      g0 <- get on k0 ;;
      gen1 <- set_rows gen [g0] PG [(re s * baseMVA + pd)%K] ;;
      match others with
      | [] => Ok gen1
      | _ => idx <- gather on others ;;
             rows <- gather gen1 idx ;;
             pg <- col PG rows ;;
             row <- get gen1 g0 ;;
             cur <- get row PG ;;
             set_rows gen1 [g0] PG [(cur - lsum (fun a => a) pg)%K]
      end
  end.

(** lines 98-101 for one end: V[bus] * conj(Y[br, :] * V) * baseMVA *)
Definition end_flow (baseMVA : K) (Y : smat (cpx K)) (V : list (cpx K)) (ends br : list nat)
  : result (list (cpx K)) :=
  v <- gather V ends ;;
  I <- mulv Y V ;;
  i <- gather I br ;;
  Ok (map2 (fun v i => cmul (cmul v (conj i)) (ofK baseMVA)) v i).

Definition pfsoln (baseMVA : K) (bus gen branch : list (list K))
    (Ybus Yf Yt : smat (cpx K)) (V : list (cpx K)) (ref : list nat)
  : result (list (list K) * list (list K) * list (list K)) :=
  bus1 <- setcol VM (map cabs V) bus ;;
  bus2 <- setcol VA (map (fun v => cang v * fofZ 180 / fpi)%K V) bus1 ;;
  st <- col GEN_STATUS gen ;;
  let on := find (map pos_status st) in
  gon <- gather gen on ;;
  gbus <- idxcol OutOfModel GEN_BUS gon ;;
  vg <- gather V gbus ;;
  I <- mulv Ybus V ;;
  ig <- gather I gbus ;;
  let Sbus := map2 (fun v i => cmul v (conj i)) vg ig in
  gen1 <- setcol QG (repeat 0%K (length gen)) gen ;;
  bg <- gather bus2 gbus ;;
  qd <- col QD bg ;;
  let q0 := map2 (fun s d => im s * baseMVA + d)%K Sbus qd in
  gen2 <- set_rows gen1 on QG q0 ;;
  gen3 <- (if length on <=? 1 then Ok gen2
           else qmin <- col QMIN gon ;;
                qmax <- col QMAX gon ;;
                q <- share_q (length bus) gbus qmin qmax q0 ;;
                set_rows gen2 on QG q) ;;
  gen4 <- foldM (slack_step baseMVA bus2 on gbus Sbus) ref gen3 ;;
  bst <- col BR_STATUS branch ;;
  let out := find (map (fun a => feqb a 0%K) bst) in
  let br := find (map (fun a => negb (feqb a 0%K)) bst) in
  bon <- gather branch br ;;
  f <- idxcol OutOfModel F_BUS bon ;;
  t <- idxcol OutOfModel T_BUS bon ;;
  Sf <- end_flow baseMVA Yf V f br ;;
  St <- end_flow baseMVA Yt V t br ;;
  b1 <- set_rows branch br PF (map re Sf) ;;
  b2 <- set_rows b1 br QF (map im Sf) ;;
  b3 <- set_rows b2 br PT (map re St) ;;
  b4 <- set_rows b3 br QT (map im St) ;;
  let z := repeat 0%K (length out) in
  b5 <- set_rows b4 out PF z ;;
  b6 <- set_rows b5 out QF z ;;
  b7 <- set_rows b6 out PT z ;;
  b8 <- set_rows b7 out QT z ;;
  Ok (bus2, gen4, b8).

(** ** runpf.py:146-208, AC formulation without reactive limits, on internal tables *)

(** lines 164-170: the start voltages *)
Definition start_voltage (bus gen : list (list K)) (on gbus pq : list nat)
  : result (list (cpx K)) :=
  vm <- col VM bus ;;
  va <- col VA bus ;;
  let V0 := map2 (fun m a => cmul (ofK m) (cis (fpi / fofZ 180 * a)%K)) vm va in
  vcb <- scatter_checked (repeat true (length V0)) pq (repeat false (length pq)) ;;
  m <- gather vcb gbus ;;
  let k := find m in
  gb <- gather gbus k ;;
  ok <- gather on k ;;
  rows <- gather gen ok ;;
  vg <- col VG rows ;;
  v <- gather V0 gb ;;
  if existsb (fun z => feqb (cabs z) 0%K) v then Err NonFinite
  else scatter_checked V0 gb
         (map2 (fun g z => cmul (ofK (g / cabs z)%K) z) vg v).

Inductive pf_alg := NR | FDXB | FDBX | GS | Unknown.
Definition alg_code (a : pf_alg) : Z := match a with FDXB => 2%Z | _ => 3%Z end.

(** an algorithm code other than 1-4 only prints a message, so V is unbound *)
Definition runpf_ac (alg : pf_alg) (tol : K) (max_it : nat) (baseMVA : K)
    (bus gen branch : list (list K))
  : result (list (list K) * list (list K) * list (list K) * bool) :=
  '(ref, pv, pq) <- bustypes bus gen ;;
  st <- col GEN_STATUS gen ;;
  let on := find (map pos_status st) in
  gon <- gather gen on ;;
  gbus <- idxcol OutOfModel GEN_BUS gon ;;
  V0 <- start_voltage bus gen on gbus pq ;;
  '(Ybus, Yf, Yt) <- makeYbus cis baseMVA bus branch ;;
  Sbus <- makeSbus baseMVA bus gen ;;
  '(V, success, _) <-
    match alg with
    | NR => newtonpf Ybus Sbus V0 pv pq tol max_it
    | FDXB | FDBX =>
        '(Bp, Bpp) <- makeB cis baseMVA bus branch (alg_code alg) ;;
        fdpf Ybus Sbus V0 Bp Bpp pv pq tol max_it
    | GS => gausspf Ybus Sbus V0 pv pq tol max_it
    | Unknown => Err UnboundLocalError
    end ;;
  '(bus', gen', branch') <- pfsoln baseMVA bus gen branch Ybus Yf Yt V ref ;;
  Ok (bus', gen', branch', success).
End AcPf.
