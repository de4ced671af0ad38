(** Continuation power flow: cpf_p.py, cpf_p_jac.py, cpf_predictor.py, cpf_corrector.py and the part of
    runcpf.py between reading the two cases and writing the results back.
    linalg.norm is the parameter [norm2].  lambda becomes a one-element array after the first corrector
    iteration; it is a number here.  The one place where the difference shows is the arc length
    parameterization with a single unknown voltage (a three-dimensional block list in hstack), which is
    outside the model.  Progress output and plots are left out. *)
From Verif Require Export Model.AcPf.

Section Cpf.
Context {K : Type} {F : Fld K}.
Variables (cis : K -> cpx K) (cabs cang : cpx K -> K).
Variable norm2 : list K -> K.
Variable solve : list (list K) -> list K -> result (list K).
Local Open Scope nat_scope.

Definition fsum (v : list K) : K := lsum (fun a => a) v.
(** lam >= lamprv *)
Definition fgeb (a b : K) : bool := negb (fltb a b).

(** r_[Va[pvpq], Vm[pq]] *)
Definition unknowns (V : list (cpx K)) (pv pq : list nat) : result (list K) :=
  a <- gather (map cang V) (pv ++ pq) ;;
  m <- gather (map cabs V) pq ;;
  Ok (a ++ m).
(** r_[pvpq, nb + pq, 2 * nb] *)
Definition positions (nb : nat) (pv pq : list nat) : list nat :=
  (pv ++ pq) ++ map (fun i => nb + i) pq ++ [2 * nb].

(** cpf_p.py:7-36; another parameterization leaves P unbound *)
Definition cpf_p (par : nat) (step : K) (z : list K) (V : list (cpx K)) (lam : K) (Vprv : list (cpx K)) (lamprv : K)
    (pv pq : list nat) : result K :=
  match par with
  | 1 => Ok (if fgeb lam lamprv then lam - lamprv - step else lamprv - lam - step)%K
  | 2 => x <- unknowns V pv pq ;;
         y <- unknowns Vprv pv pq ;;
         d <- ewise rsub (x ++ [lam]) (y ++ [lamprv]) ;;
         Ok (fsum (map (fun a => a * a)%K d) - step * step)%K
  | 3 => x <- unknowns V pv pq ;;
         y <- unknowns Vprv pv pq ;;
         d <- ewise rsub (x ++ [lam]) (y ++ [lamprv]) ;;
         w <- gather z (positions (length V) pv pq) ;;
         c <- ewise rmul w d ;;
         Ok (fsum c - step)%K
  | _ => Err UnboundLocalError
  end.

(** cpf_p_jac.py:7-36 *)
Definition cpf_p_jac (par : nat) (z : list K) (V : list (cpx K)) (lam : K) (Vprv : list (cpx K)) (lamprv : K)
    (pv pq : list nat) : result (list K * K) :=
  match par with
  | 1 => Ok (repeat 0%K (length pv + 2 * length pq), if fgeb lam lamprv then 1%K else (- (1))%K)
  | 2 => x <- unknowns V pv pq ;;
         y <- unknowns Vprv pv pq ;;
         d <- ewise rsub x y ;;
         Ok (map (rmul (fofZ 2)) d, if feqb lam lamprv then 1%K else (fofZ 2 * (lam - lamprv))%K)
  | 3 => w <- gather z ((pv ++ pq) ++ map (fun i => length V + i) pq) ;;
         l <- get z (2 * length V) ;;
         Ok (w, l)
  | _ => Err UnboundLocalError
  end.

(** cpf_predictor.py:21-41, cpf_corrector.py:76-96: the Jacobian with the column of lambda and the row of
    the parameterization; without unknowns the blocks are empty *)
Definition aug_jacobian (par : nat) (z : list K) (Ybus : smat (cpx K)) (Sxfr V : list (cpx K)) (lam : K)
    (Vprv : list (cpx K)) (lamprv : K) (pv pq : list nat) : result (list (list K)) :=
  _ <- guard (negb (length (pv ++ pq) =? 0)) OutOfModel ;;
  _ <- guard (negb ((par =? 2) && (length pv + 2 * length pq =? 1))) OutOfModel ;;
  J <- jacobian cabs Ybus V pv pq ;;
  a <- gather Sxfr (pv ++ pq) ;;
  b <- gather Sxfr pq ;;
  '(dV, dlam) <- cpf_p_jac par z V lam Vprv lamprv pv pq ;;
  Ok (map2 (fun r d => r ++ [d]) J (map ropp (map re a ++ map im b)) ++ [dV ++ [dlam]]).

(** cpf_predictor.py:13-62.  Results: V0, lam0, z *)
Definition cpf_predictor (V : list (cpx K)) (lam : K) (Ybus : smat (cpx K)) (Sxfr : list (cpx K)) (pv pq : list nat)
    (step : K) (z : list K) (Vprv : list (cpx K)) (lamprv : K) (par : nat) : result (list (cpx K) * K * list K) :=
  let nb := length V in
  J <- aug_jacobian par z Ybus Sxfr V lam Vprv lamprv pv pq ;;
  x <- solve J (repeat 0%K (length pv + 2 * length pq) ++ [1%K]) ;;
  z1 <- scatter_checked z (positions nb pv pq) x ;;
  let n := norm2 z1 in
  _ <- guard (negb (feqb n 0%K)) NonFinite ;;
  let z2 := map (fun a => a / n)%K z1 in
  za <- gather z2 (pv ++ pq) ;;
  zm <- gather z2 (map (fun i => nb + i) pq) ;;
  zl <- get z2 (2 * nb) ;;
  Va0 <- add_at (map cang V) (pv ++ pq) (map (rmul step) za) ;;
  Vm0 <- add_at (map cabs V) pq (map (rmul step) zm) ;;
  V0 <- polar cis Vm0 Va0 ;;
  Ok (V0, (lam + step * zl)%K, z2).

(** cpf_corrector.py:49-58, 114-122: F augmented with P *)
Definition cpf_residual (par : nat) (step : K) (z : list K) (Ybus : smat (cpx K)) (Sbus Sxfr V : list (cpx K)) (lam : K)
    (Vprv : list (cpx K)) (lamprv : K) (pv pq : list nat) : result (list K) :=
  mis <- mismatch Ybus Sbus V ;;
  mis <- ewise (fun m s => csub m (cmul (ofK lam) s)) mis Sxfr ;;
  Fx <- residual mis pv pq ;;
  P <- cpf_p par step z V lam Vprv lamprv pv pq ;;
  Ok (Fx ++ [P]).

(** lines 73-122: V, Va, Vm, lam, F -> the new ones *)
Definition corrector_step (par : nat) (step : K) (z : list K) (Ybus : smat (cpx K)) (Sbus Sxfr Vprv : list (cpx K))
    (lamprv : K) (pv pq : list nat) (s : list (cpx K) * list K * list K * K * list K)
  : result (list (cpx K) * list K * list K * K * list K) :=
  let '(V, Va, Vm, lam, Fx) := s in
  let npv := length pv in let npq := length pq in
  J <- aug_jacobian par z Ybus Sxfr V lam Vprv lamprv pv pq ;;
  x <- solve J Fx ;;
  let dx := map ropp x in
  Va1 <- (if npv =? 0 then Ok Va else add_at Va pv (slice 0 npv dx)) ;;
  Va2 <- (if npq =? 0 then Ok Va1 else add_at Va1 pq (slice npv (npv + npq) dx)) ;;
  Vm2 <- (if npq =? 0 then Ok Vm else add_at Vm pq (slice (npv + npq) (npv + npq + npq) dx)) ;;
  V' <- polar cis Vm2 Va2 ;;
  dl <- get dx (npv + npq + npq) ;;
  let lam' := (lam + dl)%K in
  Fx' <- cpf_residual par step z Ybus Sbus Sxfr V' lam' Vprv lamprv pv pq ;;
  Ok (V', map cang V', map cabs V', lam', Fx').

Fixpoint corrector_loop (par : nat) (step : K) (z : list K) (Ybus : smat (cpx K)) (Sbus Sxfr Vprv : list (cpx K))
    (lamprv : K) (pv pq : list nat) (tol : K) (fuel i : nat) (s : list (cpx K) * list K * list K * K * list K)
  : result (list (cpx K) * bool * nat * K) :=
  let '(V, _, _, lam, Fx) := s in
  normF <- norm_inf Fx ;;
  if fltb normF tol then Ok (V, true, i, lam)
  else match fuel with
       | 0 => Ok (V, false, i, lam)
       | S k => s' <- corrector_step par step z Ybus Sbus Sxfr Vprv lamprv pv pq s ;;
                corrector_loop par step z Ybus Sbus Sxfr Vprv lamprv pv pq tol k (S i) s'
       end.

(** cpf_corrector.py:15-137.  Results: V, converged, i, lam *)
Definition cpf_corrector (Ybus : smat (cpx K)) (Sbus V0 : list (cpx K)) (pv pq : list nat) (lam0 : K)
    (Sxfr Vprv : list (cpx K)) (lamprv : K) (z : list K) (step : K) (par : nat) (tol : K) (max_it : nat)
  : result (list (cpx K) * bool * nat * K) :=
  Fx <- cpf_residual par step z Ybus Sbus Sxfr V0 lam0 Vprv lamprv pv pq ;;
  corrector_loop par step z Ybus Sbus Sxfr Vprv lamprv pv pq tol max_it 0 (V0, map cang V0, map cabs V0, lam0, Fx).

(** ** runcpf.py *)

(** ppopt["CPF_STOP_AT"] *)
Inductive stop_at := Nose | Full | At (l : K).
(** lines 46-50 and the options of the adaptive step; [cp_tol] and [cp_max_it] are PF_TOL and PF_MAX_IT *)
Record cpf_opt := CpfOpt {
  cp_step : K; cp_par : nat; cp_adapt : bool; cp_stop : stop_at;
  cp_err_tol : K; cp_step_min : K; cp_step_max : K; cp_tol : K; cp_max_it : nat }.

(** what the default callback (cpf_callbacks.py:12-114) records of one step *)
Record point := Pt { V_p : list (cpx K); lam_p : K; V_c : list (cpx K); lam_c : K }.

(** the variables of the loop; [cs_done] is "not continuation" *)
Record cstate := CS {
  cs_V : list (cpx K); cs_lam : K; cs_Vprv : list (cpx K); cs_lamprv : K; cs_z : list K;
  cs_step : K; cs_par : nat; cs_adapt : bool; cs_done : bool; cs_success : bool; cs_it : nat;
  cs_points : list point }.

Definition tiny : K := (fofZ 1 / fofZ (10 ^ 8))%K.   (* 1e-8 *)

(** lines 213-247: whether to stop, and the step, parameterization and adaptivity from here on *)
Definition stop_test (st : stop_at) (lam lamprv step : K) (par : nat) (adapt : bool) : bool * K * nat * bool :=
  match st with
  | Full =>
      if fltb (fabs lam) tiny then (true, step, par, adapt)
      else if fltb lam lamprv && fltb (lam - step)%K 0%K then (false, lam, 1, false)
      else (false, step, par, adapt)
  | Nose => if fltb lam lamprv then (true, step, par, adapt) else (false, step, par, adapt)
  | At l =>
      if fltb lam lamprv then (true, step, par, adapt)
      else if fltb (fabs (l - lam)%K) tiny then (true, step, par, adapt)
      else if fltb l (lam + step)%K then (false, (l - lam)%K, 1, false)
      else (false, step, par, adapt)
  end.

(** lines 249-263; 0 / 0 and negative steps over 0 are not finite, a positive step over 0 is inf and
    hence replaced by the maximum *)
Definition adapt_size (o : cpf_opt) (pv pq : list nat) (V V0 : list (cpx K)) (lam lam0 step : K) : result K :=
  a <- gather (map cang V) pq ;;
  m <- gather (map cabs V) (pv ++ pq) ;;
  a0 <- gather (map cang V0) pq ;;
  m0 <- gather (map cabs V0) (pv ++ pq) ;;
  d <- ewise rsub (a ++ m ++ [lam]) (a0 ++ m0 ++ [lam0]) ;;
  err <- norm_inf d ;;
  let s := (step * cp_err_tol o)%K in
  if fltb err (cp_err_tol o) then
    if feqb err 0%K then (if fltb 0%K s then Ok (cp_step_max o) else Err NonFinite)
    else Ok (if fltb (cp_step_max o) (s / err)%K then cp_step_max o else (s / err)%K)
  else if feqb err 0%K then Err NonFinite
  else Ok (if fltb (s / err)%K (cp_step_min o) then cp_step_min o else (s / err)%K).

(** lines 182-263: one pass of the loop *)
Definition cpf_step (o : cpf_opt) (Ybus : smat (cpx K)) (Sbus Sxfr : list (cpx K)) (pv pq : list nat) (c : cstate)
  : result cstate :=
  '(V0, lam0, z) <- cpf_predictor (cs_V c) (cs_lam c) Ybus Sxfr pv pq (cs_step c) (cs_z c) (cs_Vprv c) (cs_lamprv c)
                      (cs_par c) ;;
  '(V, success, i, lam) <- cpf_corrector Ybus Sbus V0 pv pq lam0 Sxfr (cs_V c) (cs_lam c) z (cs_step c) (cs_par c)
                             (cp_tol o) (cp_max_it o) ;;
  if negb success then
    Ok (CS V lam (cs_V c) (cs_lam c) z (cs_step c) (cs_par c) (cs_adapt c) true false i (cs_points c))
  else
    let '(done, step, par, adapt) := stop_test (cp_stop o) lam (cs_lam c) (cs_step c) (cs_par c) (cs_adapt c) in
    step' <- (if adapt && negb done then adapt_size o pv pq V V0 lam lam0 step else Ok step) ;;
    Ok (CS V lam (cs_V c) (cs_lam c) z step' par adapt done true i (cs_points c ++ [Pt V0 lam0 V lam])).

(** the loop has no bound of its own: [None] when [fuel] runs out *)
Fixpoint cpf_loop (o : cpf_opt) (Ybus : smat (cpx K)) (Sbus Sxfr : list (cpx K)) (pv pq : list nat) (fuel : nat)
    (c : cstate) : result (option cstate) :=
  if cs_done c then Ok (Some c)
  else match fuel with
       | 0 => Ok None
       | S k => c' <- cpf_step o Ybus Sbus Sxfr pv pq c ;; cpf_loop o Ybus Sbus Sxfr pv pq k c'
       end.

Record cpf_result := CpfRes {
  cr_bus : list (list K); cr_gen : list (list K); cr_branch : list (list K); cr_success : bool;
  cr_iterations : nat; cr_lam : K; cr_max_lam : option K; cr_points : list point }.

(** b + lam * (t - b), column [j] of the target table *)
Definition blend (lam : K) (j : nat) (base target : list (list K)) : result (list (list K)) :=
  b <- col j base ;;
  t <- col j target ;;
  d <- ewise rsub t b ;;
  v <- ewise (fun b d => b + lam * d)%K b d ;;
  setcol j v target.

(** numpy.amax of a non-empty vector *)
Definition amax (v : list K) : result K :=
  match v with [] => Err ValueError | a :: t => Ok (fold_left (fun m x => fmax m x) t a) end.

(** lines 79-296 on the internal tables of the two cases.  The table of points starts with the base
    solution.  With a single point V_p and V_c are vectors, which i2e_data (lines 293-296) cannot store in
    the rows of a matrix unless there is one bus. *)
Definition runcpf (fuel : nat) (o : cpf_opt) (baseb : K) (busb genb branchb : list (list K))
    (baset : K) (bust gent brancht : list (list K)) : result (option cpf_result) :=
  '(ref, pv, pq) <- bustypes busb genb ;;
  st <- col GEN_STATUS genb ;;
  let on := find (map pos_status st) in
  gon <- gather genb on ;;
  gbus <- idxcol OutOfModel GEN_BUS gon ;;
  V0 <- start_voltage cis cabs busb genb on gbus pq ;;
  '(Ybus, Yf, Yt) <- makeYbus cis baseb busb branchb ;;
  Sb <- makeSbus baseb busb genb ;;
  St <- makeSbus baset bust gent ;;
  Sxfr <- ewise csub St Sb ;;
  '(V, success, _) <- newtonpf cis cabs cang solve Ybus Sb V0 pv pq (cp_tol o) (cp_max_it o) ;;
  let same := forallb czero Sxfr in
  let z := repeat 0%K (2 * length V) ++ [1%K] in
  let c0 := CS V 0%K V 0%K z (cp_step o) (cp_par o) (cp_adapt o) same success 0 [Pt V 0%K V 0%K] in
  r <- cpf_loop o Ybus Sb Sxfr pv pq fuel c0 ;;
  match r with
  | None => Ok None
  | Some c =>
      _ <- guard (cs_success c || negb same) UnboundLocalError ;;
      let lam := cs_lam c in
      bus1 <- blend lam PD busb bust ;;
      bus2 <- blend lam QD busb bus1 ;;
      gen1 <- blend lam PG genb gent ;;
      '(bus', gen', branch') <- pfsoln cabs cang baset bus2 gen1 brancht Ybus Yf Yt (cs_V c) ref ;;
      if cs_success c then
        _ <- guard ((1 <? length (cs_points c)) || (length (cs_V c) =? 1)) ValueError ;;
        ml <- amax (map lam_c (cs_points c)) ;;
        Ok (Some (CpfRes bus' gen' branch' true (length (cs_points c) - 1) lam (Some ml) (cs_points c)))
      else Ok (Some (CpfRes bus' gen' branch' false (cs_it c) lam None []))
  end.
End Cpf.
