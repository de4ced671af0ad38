(** The interior point solver: pips.py:22-644.
    User callbacks, the linear solver and [log] are parameters.  The decimal constants are exact.
    Arrays of one element are not broadcast against longer ones, progress output and the history
    list are left out, and a division by zero is the error NonFinite. *)
From Verif Require Export Lib.Ext Model.AcPf.

(** ** sparse matrix blocks *)
Section Blocks.
Context {K : Type} {R : Rng K}.
Local Open Scope nat_scope.

(** scipy hstack([A, B]) and vstack([A, B]) *)
Definition hstackm (A B : smat K) : result (smat K) :=
  if nrows A =? nrows B
  then Ok (SM (nrows A) (ncols A + ncols B)
            (ents A ++ map (fun e => Ent (erow e) (ncols A + ecol e) (ev e)) (ents B)))
  else Err ValueError.
Definition vstackm (A B : smat K) : result (smat K) :=
  if ncols A =? ncols B
  then Ok (SM (nrows A + nrows B) (ncols A)
            (ents A ++ map (fun e => Ent (nrows A + erow e) (ecol e) (ev e)) (ents B)))
  else Err ValueError.
(** A[idx, :] *)
Definition rowsel (A : smat K) (idx : list nat) : result (smat K) :=
  if forallb (fun i => i <? nrows A) idx
  then Ok (SM (length idx) (ncols A)
            (flat_map (fun p => map (fun e => Ent (fst p) (ecol e) (ev e))
                                  (filter (fun e => erow e =? snd p) (ents A)))
               (combine (seq 0 (length idx)) idx)))
  else Err IndexError.
Definition eyem (n : nat) : smat K := SM n n (zip3 (seq 0 n) (seq 0 n) (repeat 1%K n)).
End Blocks.

Section Pips.
Context {K : Type} {F : Fld K}.
Local Open Scope nat_scope.

(** decimal n / 10^d *)
Definition dec (n : Z) (d : nat) : K := (fofZ n / fofZ (10 ^ Z.of_nat d))%K.
Definition xi : K := dec 99995 5.
Definition sigma : K := dec 1 1.
Definition alpha_min : K := dec 1 8.
Definition rho_min : K := dec 95 2.
Definition rho_max : K := dec 105 2.
Definition mu_threshold : K := dec 1 5.
Definition BIG : K := fofZ 10000000000.

Definition fmin (a b : K) : K := if fltb b a then b else a.
Definition fle (a b : K) : bool := negb (fltb b a).
Definition dotv (u v : list K) : K := lsum (fun p => fst p * snd p)%K (combine u v).
Definition scale (a : K) (v : list K) : list K := map (rmul a) v.

(** ** lines 238-257: bounds as equalities and one-sided inequalities *)
Definition near (u l : ext K) : bool :=          (* absolute(uu - ll) <= EPS; nan compares false *)
  match u, l with EFin a, EFin b => fle (fabs (a - b)%K) EPS | _, _ => false end.
Definition apart (u l : ext K) : bool :=         (* absolute(uu - ll) > EPS *)
  match u, l with
  | EFin a, EFin b => fltb EPS (fabs (a - b)%K)
  | EPos, EPos | ENeg, ENeg => false
  | _, _ => true
  end.
Definition big (u : ext K) : bool :=             (* uu >= 1e10 *)
  match u with EFin a => fle BIG a | EPos => true | ENeg => false end.
Definition mbig (l : ext K) : bool :=            (* ll <= -1e10 *)
  match l with EFin a => fle a (- BIG)%K | EPos => false | ENeg => true end.
(** a bound used as a number: an infinite one would make the constraint non-finite *)
Definition fin (a : ext K) : result K := match a with EFin a => Ok a | _ => Err NonFinite end.

Record split := Split {
  s_ieq : list nat; s_igt : list nat; s_ilt : list nat; s_ibx : list nat;
  s_Ae : option (smat K); s_be : list K; s_Ai : option (smat K); s_bi : list K }.

Definition def_bounds (d : ext K) (n : nat) (b : list (ext K)) : list (ext K) :=
  match b with [] => repeat d n | _ => b end.

Definition split_bounds (nx : nat) (A : option (smat K)) (l u xmin xmax : list (ext K))
  : result split :=
  let nA := match A with Some M => nrows M | None => 0 end in
  AA <- match A with Some M => vstackm (eyem nx) M | None => Ok (eyem nx) end ;;
  let ll := def_bounds ENeg nx xmin ++ def_bounds ENeg nA l in
  let uu := def_bounds EPos nx xmax ++ def_bounds EPos nA u in
  nr <- ewise near uu ll ;;
  ap <- ewise apart uu ll ;;
  let ieq := find nr in
  let igt := find (map2 (fun u l => big u && negb (mbig l)) uu ll) in
  let ilt := find (map2 (fun u l => mbig l && negb (big u)) uu ll) in
  let ibx := find (map2 (fun a p => a && p) ap
                     (map2 (fun u l => negb (big u) && negb (mbig l)) uu ll)) in
  Ae <- rowsel AA ieq ;;
  A1 <- rowsel AA ilt ;;
  A2 <- rowsel AA igt ;;
  A3 <- rowsel AA ibx ;;
  (* blocks without rows are skipped by the code, here they add no entries *)
  B1 <- vstackm A1 (mapm ropp A2) ;;
  B2 <- vstackm B1 A3 ;;
  Ai <- vstackm B2 (mapm ropp A3) ;;
  ub <- mapM fin (map (fun i => nth i uu EPos) ieq) ;;
  b1 <- mapM fin (map (fun i => nth i uu EPos) ilt) ;;
  b2 <- mapM fin (map (fun i => nth i ll EPos) igt) ;;
  b3 <- mapM fin (map (fun i => nth i uu EPos) ibx) ;;
  b4 <- mapM fin (map (fun i => nth i ll EPos) ibx) ;;
  Ok (Split ieq igt ilt ibx (match ieq with [] => None | _ => Some Ae end) ub
        (match ilt ++ igt ++ ibx with [] => None | _ => Some Ai end)
        (b1 ++ map ropp b2 ++ b3 ++ map ropp b4)).

(** ** the problem and the options *)
(** [gh] returns hn, gn, dhn, dgn; [hess] takes x, the multipliers of gn and hn, and cost_mult *)
Record problem := Problem {
  p_f : list K -> result (K * list K);
  p_d2f : list K -> result (smat K);
  p_gh : option (list K -> result (list K * list K * option (smat K) * option (smat K)));
  p_hess : list K -> list K -> list K -> K -> result (smat K) }.

Record popt := POpt {
  o_feastol : K; o_gradtol : K; o_comptol : K; o_costtol : K; o_max_it : nat;
  o_step_control : bool; o_max_red : nat; o_cost_mult : K }.

(** pplinsolve: may raise, may return NaNs (None) *)
Variable solve : smat K -> list K -> result (option (list K)).
Variable ln : K -> K.
Variables (P : problem) (O : popt) (sp : split) (nx : nat).

Record evals := Ev {
  e_f : K; e_df : list K; e_h : list K; e_g : list K;
  e_dh : option (smat K); e_dg : option (smat K);
  e_nh : nat; e_ng : nat;            (* lengths of hn and gn *)
  e_dgn : bool }.                    (* dgn is given *)

(** r_[hn, Ai * x - bi] *)
Definition with_linear (nl : list K) (A : option (smat K)) (b : list K) (x : list K)
  : result (list K) :=
  match A with
  | None => Ok nl
  | Some A => v <- mulv A x ;; w <- ewise rsub v b ;; Ok (nl ++ w)
  end.
(** the derivative of both parts; [given] is whether the nonlinear derivative is taken to exist *)
Definition with_linear_t (given : bool) (dn : option (smat K)) (A : option (smat K))
  : result (option (smat K)) :=
  match dn, A with
  | None, None => Ok None
  | _, None => Ok dn
  | None, Some A => if given then Err ValueError else Ok (Some (transp A))
  | Some d, Some A => if given then M <- hstackm d (transp A) ;; Ok (Some M)
                      else Ok (Some (transp A))
  end.

(** lines 259-290, 408-442 and 505-536: cost, constraints and derivatives at x.  The step-size
    control tests dgn of the current point instead of the one at x1 (line 419): [prev]. *)
Definition eval (prev : option bool) (x : list K) : result evals :=
  '(f, df) <- p_f P x ;;
  let f := (f * o_cost_mult O)%K in
  let df := map (fun a => a * o_cost_mult O)%K df in
  match p_gh P with
  | None =>
      h <- (match s_Ai sp with None => Ok (map ropp (s_bi sp)) | A => with_linear [] A (s_bi sp) x end) ;;
      g <- (match s_Ae sp with None => Ok (map ropp (s_be sp)) | A => with_linear [] A (s_be sp) x end) ;;
      Ok (Ev f df h g (option_map transp (s_Ai sp)) (option_map transp (s_Ae sp)) 0 0 false)
  | Some gh =>
      '(hn, gn, dhn, dgn) <- gh x ;;
      h <- with_linear hn (s_Ai sp) (s_bi sp) x ;;
      g <- with_linear gn (s_Ae sp) (s_be sp) x ;;
      let some := fun d : option (smat K) => match d with Some _ => true | None => false end in
      dh <- with_linear_t (some dhn) dhn (s_Ai sp) ;;
      dg <- with_linear_t (match prev with Some b => b | None => some dgn end) dgn (s_Ae sp) ;;
      Ok (Ev f df h g dh dg (length hn) (length gn) (some dgn))
  end.

(** norm(v, inf) if len(v) else 0 *)
Definition norm0 (v : list K) : result K := match v with [] => Ok 0%K | _ => norm_inf v end.
(** max(h), zero if there is none *)
Definition maxh (h : list K) : K := match h with [] => 0%K | a :: t => fold_left fmax t a end.

(** Lx = df + dg * lam + dh * mu *)
Definition add_mulv (v : list K) (M : option (smat K)) (w : list K) : result (list K) :=
  match M with None => Ok v | Some M => t <- mulv M w ;; ewise radd v t end.
Definition lagr_grad (df : list K) (dg dh : option (smat K)) (lam mu : list K)
  : result (list K) :=
  v <- add_mulv df dg lam ;; add_mulv v dh mu.

Definition feas (g h x z : list K) : result K :=
  gn <- norm0 g ;; xn <- norm_inf x ;; zn <- norm0 z ;;
  Ok (fmax gn (maxh h) / (1 + fmax xn zn))%K.
Definition grad (Lx lam mu : list K) : result K :=
  a <- norm_inf Lx ;; b <- norm0 lam ;; c <- norm0 mu ;;
  Ok (a / (1 + fmax b c))%K.

Record state := St {
  t_x : list K; t_z : list K; t_lam : list K; t_mu : list K; t_gamma : K;
  t_e : evals; t_Lx : list K; t_feas : K; t_grad : K; t_comp : K; t_cost : K; t_L : K }.

Definition lagrangian (e : evals) (lam mu z : list K) (gamma : K) : result K :=
  hz <- ewise radd (e_h e) z ;;
  a <- ewise rmul lam (e_g e) ;;
  b <- ewise rmul mu hz ;;
  Ok (e_f e + lsum (fun x => x) a + lsum (fun x => x) b - gamma * lsum ln z)%K.

(** lines 312-332 and 538-556 *)
Definition measure (e : evals) (x z lam mu : list K) (gamma f0 : K) : result state :=
  Lx <- lagr_grad (e_df e) (e_dg e) (e_dh e) lam mu ;;
  fc <- feas (e_g e) (e_h e) x z ;;
  gc <- grad Lx lam mu ;;
  xn <- norm_inf x ;;
  L <- (if o_step_control O then lagrangian e lam mu z gamma else Ok 0%K) ;;
  Ok (St x z lam mu gamma e Lx fc gc (dotv z mu / (1 + xn))%K
        (fabs (e_f e - f0) / (1 + fabs f0))%K L).

Definition conv (s : state) : bool :=
  fltb (t_feas s) (o_feastol O) && fltb (t_grad s) (o_gradtol O)
  && fltb (t_comp s) (o_comptol O) && fltb (t_cost s) (o_costtol O).

(** lines 259-332 *)
Definition init_z (h : list K) : list K := map (fun a => if fltb a (- (1))%K then (- a)%K else 1%K) h.
Definition init_mu (z : list K) : list K :=
  map (fun a => if fltb 1%K (1 / a)%K then (1 / a)%K else 1%K) z.
Definition start (x0 : list K) : result state :=
  e <- eval None x0 ;;
  let z := init_z (e_h e) in
  measure e x0 z (repeat 0%K (length (e_g e))) (init_mu z) 1%K (e_f e).

(** lines 364-401: the Newton direction dx, dlam, dz, dmu and the Hessian; None if the solver
    returned NaNs *)
Definition reduced (s : state) (Lxx : smat K) : result (smat K * list K) :=
  match e_dh (t_e s) with
  | None => Ok (Lxx, t_Lx s)
  | Some dh =>
      if existsb (fun a => feqb a 0%K) (t_z s) then Err NonFinite
      else
        Zi <- diagm (map (fun a => 1 / a)%K (t_z s)) ;;
        Mu <- diagm (t_mu s) ;;
        dhz <- mulm dh Zi ;;
        T1 <- mulm dhz Mu ;;
        T2 <- mulm T1 (transp dh) ;;
        M <- addm Lxx T2 ;;
        w <- ewise (fun m h => m * h + t_gamma s)%K (t_mu s) (e_h (t_e s)) ;;
        v <- mulv dhz w ;;
        N <- ewise radd (t_Lx s) v ;;
        Ok (M, N)
  end.

Definition kkt_matrix (M : smat K) (dg : option (smat K)) (neq : nat) : result (smat K) :=
  match dg with
  | None => Ok M
  | Some dg =>
      top <- hstackm M dg ;;
      bot <- hstackm (transp dg) (SM neq neq []) ;;
      vstackm top bot
  end.

Definition direction (neqnln niqnln neq : nat) (s : state)
  : result (option (list K * list K * list K * list K * smat K)) :=
  let e := t_e s in
  Lxx <- match p_gh P with
         | Some _ => p_hess P (t_x s) (firstn neqnln (t_lam s)) (firstn niqnln (t_mu s)) (o_cost_mult O)
         | None => M <- p_d2f P (t_x s) ;; Ok (mapm (fun a => a * o_cost_mult O)%K M)
         end ;;
  '(M, N) <- reduced s Lxx ;;
  Ab <- kkt_matrix M (e_dg e) neq ;;
  sol <- solve Ab (map ropp N ++ map ropp (e_g e)) ;;
  match sol with
  | None => Ok None
  | Some sol =>
      let dx := firstn nx sol in
      let dlam := slice nx (nx + neq) sol in
      hz <- ewise (fun h z => - h - z)%K (e_h e) (t_z s) ;;
      dz <- match e_dh e with
            | None => Ok hz
            | Some dh => v <- mulv (transp dh) dx ;; ewise rsub hz v
            end ;;
      dmu <- match e_dh e with
             | None => Ok (map ropp (t_mu s))
             | Some _ =>
                 w <- ewise (fun m d => t_gamma s - m * d)%K (t_mu s) dz ;;
                 q <- vdiv w (t_z s) ;;
                 ewise (fun m q => - m + q)%K (t_mu s) q
             end ;;
      Ok (Some (dx, dlam, dz, dmu, Lxx))
  end.

(** lines 403-491: the step-size control's factor *)
Fixpoint reduce_step (fuel : nat) (s : state) (dx : list K) (Lxx : smat K) (alpha : K) : result K :=
  match fuel with
  | 0 => Ok alpha
  | S k =>
      let dx1 := scale alpha dx in
      x1 <- ewise radd (t_x s) dx1 ;;
      e1 <- eval (Some (e_dgn (t_e s))) x1 ;;
      L1 <- lagrangian e1 (t_lam s) (t_mu s) (t_z s) (t_gamma s) ;;
      Hd <- mulv Lxx dx1 ;;
      let den := (dotv (t_Lx s) dx1 + dec 5 1 * dotv dx1 Hd)%K in
      if feqb den 0%K then Err NonFinite
      else
        let rho := ((L1 - t_L s) / den)%K in
        if fltb rho_min rho && fltb rho rho_max then Ok alpha
        else reduce_step k s dx Lxx (alpha / fofZ 2)%K
  end.

Definition step_factor (s : state) (dx : list K) (Lxx : smat K) : result (option K) :=
  if o_step_control O then
    x1 <- ewise radd (t_x s) dx ;;
    e1 <- eval (Some (e_dgn (t_e s))) x1 ;;
    Lx1 <- lagr_grad (e_df e1) (e_dg e1) (e_dh e1) (t_lam s) (t_mu s) ;;
    f1 <- feas (e_g e1) (e_h e1) x1 (t_z s) ;;
    g1 <- grad Lx1 (t_lam s) (t_mu s) ;;
    if fltb (t_feas s) f1 && fltb (t_grad s) g1
    then a <- reduce_step (o_max_red O) s dx Lxx 1%K ;; Ok (Some a)
    else Ok None
  else Ok None.

(** lines 494-497: largest step keeping the vector positive *)
Definition ratios (z dz : list K) : list K :=
  map (fun p => fst p / - snd p)%K (filter (fun p => fltb (snd p) 0%K) (combine z dz)).
Definition step_len (z dz : list K) : K :=
  match ratios z dz with
  | [] => 1%K
  | a :: t => fmin (xi * fold_left fmin t a)%K 1%K
  end.

(** lines 493-556; also the step lengths *)
Definition advance (niq : nat) (s : state) (dx dlam dz dmu : list K)
  : result (state * K * K) :=
  let ap := step_len (t_z s) dz in
  let ad := step_len (t_mu s) dmu in
  x <- ewise radd (t_x s) (scale ap dx) ;;
  z <- ewise radd (t_z s) (scale ap dz) ;;
  lam <- ewise radd (t_lam s) (scale ad dlam) ;;
  mu <- ewise radd (t_mu s) (scale ad dmu) ;;
  let gamma := if niq =? 0 then t_gamma s
               else (sigma * dotv z mu / fofZ (Z.of_nat niq))%K in
  e <- eval None x ;;
  s' <- measure e x z lam mu gamma (e_f (t_e s)) ;;
  Ok (s', ap, ad).

Inductive outcome := Converged | Limit | Failed.

Definition iterate (neqnln niqnln neq niq : nat) (s : state) : result (option (state * K * K)) :=
  d <- direction neqnln niqnln neq s ;;
  match d with
  | None => Ok None
  | Some (dx, dlam, dz, dmu, Lxx) =>
      a <- step_factor s dx Lxx ;;
      let r := match a with Some a => scale a | None => fun v => v end in
      t <- advance niq s (r dx) (r dlam) (r dz) (r dmu) ;;
      Ok (Some t)
  end.

(** the while loop, lines 353-583 *)
Fixpoint pips_loop (neqnln niqnln neq niq : nat) (fuel i : nat) (s : state)
  : result (state * nat * outcome) :=
  match fuel with
  | 0 => Ok (s, i, Limit)
  | S k =>
      t <- iterate neqnln niqnln neq niq s ;;
      match t with
      | None => Ok (s, S i, Failed)
      | Some (s', ap, ad) =>
          if conv s' then Ok (s', S i, Converged)
          else if fltb ap alpha_min || fltb ad alpha_min || fltb (t_gamma s') EPS
                  || fltb (1 / EPS)%K (t_gamma s')
               then Ok (s', S i, Failed)
               else pips_loop neqnln niqnln neq niq k (S i) s'
      end
  end.

Definition pips_run (x0 : list K) : result (state * nat * outcome) :=
  s <- start x0 ;;
  let e := t_e s in
  if conv s then Ok (s, 0, Converged)
  else pips_loop (e_ng e) (e_nh e) (length (e_g e)) (length (e_h e)) (o_max_it O) 0 s.
End Pips.

(** ** lines 589-642: results *)
Section Results.
Context {K : Type} {F : Fld K}.
Local Open Scope nat_scope.

Record lmbda := Lmbda {
  m_mu_l : list K; m_mu_u : list K; m_lower : list K; m_upper : list K;
  m_eqnonlin : list K; m_ineqnonlin : list K }.
Record solution := Solution {
  r_x : list K; r_f : K; r_eflag : bool; r_iterations : nat; r_message : outcome; r_lmbda : lmbda }.

(** lines 604-634: multipliers of the split system back to the original rows *)
Definition unsplit (n : nat) (sp : split (K := K)) (lam mu : list K) : result (list K * list K) :=
  let nlt := length (s_ilt sp) in let ngt := length (s_igt sp) in let nbx := length (s_ibx sp) in
  let kl := find (map (fun a => fltb a 0%K) lam) in
  let ku := find (map (fun a => fltb 0%K a) lam) in
  el <- gather (s_ieq sp) kl ;;
  eu <- gather (s_ieq sp) ku ;;
  ll <- gather lam kl ;;
  lu <- gather lam ku ;;
  l1 <- scatter_checked (repeat 0%K n) el (map ropp ll) ;;
  l2 <- scatter_checked l1 (s_igt sp) (slice nlt (nlt + ngt) mu) ;;
  l3 <- scatter_checked l2 (s_ibx sp) (slice (nlt + ngt + nbx) (nlt + ngt + nbx + nbx) mu) ;;
  u1 <- scatter_checked (repeat 0%K n) eu lu ;;
  u2 <- scatter_checked u1 (s_ilt sp) (slice 0 nlt mu) ;;
  u3 <- scatter_checked u2 (s_ibx sp) (slice (nlt + ngt) (nlt + ngt + nbx) mu) ;;
  Ok (l3, u3).

Definition clean_mu (feastol : K) (h mu : list K) : result (list K) :=
  ewise (fun h m => if fltb h (- feastol)%K && fltb m mu_threshold then 0%K else m) h mu.

Definition package (O : popt (K := K)) (sp : split) (nx nA ng nh : nat)
    (s : state) (i : nat) (o : outcome) : result solution :=
  mu0 <- clean_mu (o_feastol O) (e_h (t_e s)) (t_mu s) ;;
  if feqb (o_cost_mult O) 0%K then Err NonFinite
  else
    let un := map (fun a => a / o_cost_mult O)%K in
    let lam := un (t_lam s) in let mu := un mu0 in
    '(ml, mu_) <- unsplit (nx + nA) sp (skipn ng lam) (skipn nh mu) ;;
    Ok (Solution (t_x s) (e_f (t_e s) / o_cost_mult O)%K
          (match o with Converged => true | _ => false end) i o
          (Lmbda (skipn nx ml) (skipn nx mu_) (firstn nx ml) (firstn nx mu_)
             (firstn ng lam) (firstn nh mu))).

Definition pips (solve : smat K -> list K -> result (option (list K))) (ln : K -> K)
    (P : problem) (O : popt) (x0 : list K) (A : option (smat K))
    (l u xmin xmax : list (ext K)) : result solution :=
  let nx := length x0 in
  sp <- split_bounds nx A l u xmin xmax ;;
  s0 <- start ln P O sp x0 ;;
  '(s, i, o) <- pips_run solve ln P O sp nx x0 ;;
  package O sp nx (match A with Some M => nrows M | None => 0 end)
    (e_ng (t_e s0)) (e_nh (t_e s0)) s i o.
End Results.
