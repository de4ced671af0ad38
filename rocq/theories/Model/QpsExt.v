(** pypower/qps_cplex.py, qps_gurobi.py, qps_ipopt.py, qps_mosek.py: from the call to the point where the external solver is
    called, called with separate arguments (not with a dict).  The packages are taken to be installed.
    Arguments are kept with their types and sizes; entries of matrices do not matter.  [Ok tt]: the solver is called. *)
From Verif Require Export Lib.Py Lib.Num.
Local Open Scope nat_scope.

(** a dense array with its numbers of rows and columns ([Dense 0 0] also for an empty list), a sparse matrix, None *)
Inductive mat := Dense (rows cols : nat) | Sparse | NoMat.
(** a one-dimensional array, None *)
Inductive vec := Vec (x : list num) | NoVec.

Definition len_m (m : mat) : result nat := match m with Dense r _ => Ok r | _ => Err TypeError end.
Definition len_v (v : vec) : result nat := match v with Vec x => Ok (length x) | NoVec => Err TypeError end.
(** any(any(H)) with the builtin any, for H with rows: the truth of a row of several entries is an error, and the result of the
    inner call is no sequence *)
Definition any_any (cols : nat) : result bool := if 2 <=? cols then Err ValueError else Err TypeError.
(** len(H) == 0 or not any(any(H)) *)
Definition is_lp (H : mat) : result bool :=
  n <- len_m H ;; if n =? 0 then Ok true else match H with Dense _ c => b <- any_any c ;; Ok (negb b) | _ => Err TypeError end.
(** 1e10 & l for an array of numbers: there is no such operation on floats *)
Definition float_and (v : vec) : result unit := Err TypeError.

(** qps_cplex.py:102-118, the same in the other two: None if nx is not set *)
Definition columns (A : mat) (xmin xmax : vec) : result (option nat) :=
  a <- len_m A ;;
  none <- (if a =? 0 then x <- len_v xmin ;; if x =? 0 then y <- len_v xmax ;; Ok (y =? 0) else Ok false else Ok false) ;;
  if none : bool then Ok None
  else if 0 <? a then match A with Dense _ c => Ok (Some c) | _ => Err TypeError end
  else x <- len_v xmin ;; if 0 <? x then Ok (Some x) else y <- len_v xmax ;; Ok (Some y).
Definition set (nx : option nat) : result nat := of_option UnboundLocalError nx.

(** len(v) == 0 or all(v == s) *)
Definition unlimited (s : num) (v : vec) : result bool :=
  match v with Vec x => Ok ((length x =? 0) || forallb (fun y => n_eqb y s) x) | NoVec => Err TypeError end.
(** qps_cplex.py:124-128: the matrix becomes None without limits, and then has no shape *)
Definition rows_of (A : mat) (l u : vec) : result nat :=
  a <- len_m A ;;
  drop <- (if 0 <? a then x <- unlimited NInf l ;; if x : bool then unlimited PInf u else Ok false else Ok false) ;;
  if drop : bool then Err IndexError else Ok a.
Definition given {T} (is_none : T -> bool) (x : T) : result unit := guard (negb (is_none x)) AssertionError.
Definition no_mat (m : mat) : bool := match m with NoMat => true | _ => false end.
Definition no_vec (v : vec) : bool := match v with NoVec => true | _ => false end.
Definition default (s : num) (n : result nat) (v : vec) : result vec :=
  k <- len_v v ;; if k =? 0 then m <- n ;; Ok (Vec (repeat s m)) else Ok v.

Definition head (H : mat) (c : vec) (A : mat) (l : vec) : result unit :=
  _ <- given no_mat H ;; _ <- given no_vec c ;; _ <- given no_mat A ;; given no_vec l.

(** qps_cplex.py:80-205 *)
Definition qps_cplex (H : mat) (c : vec) (A : mat) (l u xmin xmax x0 : vec) : result unit :=
  _ <- head H c A l ;;
  lp <- is_lp H ;;
  nx <- (if lp : bool then columns A xmin xmax else match H with Dense r _ => Ok (Some r) | _ => Err TypeError end) ;;
  c <- default (n_ofZ 0) (set nx) c ;;
  nA <- rows_of A l u ;;
  u <- default PInf (Ok nA) u ;;
  l <- default NInf (Ok nA) l ;;
  xmin <- default NInf (set nx) xmin ;;
  xmax <- default PInf (set nx) xmax ;;
  x0 <- default (n_ofZ 0) (set nx) x0 ;;
  (* igt = find( u >= 1e10 & l > -1e10 ) *)
  _ <- float_and l ;;
  float_and u.

(** qps_gurobi.py:110-230; [grb_options]: reading the options *)
Definition qps_gurobi (grb_options : result unit) (H : mat) (c : vec) (A : mat) (l u xmin xmax x0 : vec) : result unit :=
  _ <- head H c A l ;;
  lp <- is_lp H ;;
  nx <- (if lp : bool then n <- columns A xmin xmax ;; set n else match H with Dense r _ => Ok r | _ => Err TypeError end) ;;
  c <- default (n_ofZ 0) (Ok nx) c ;;
  nA <- rows_of A l u ;;
  u <- (if 0 <? nA then default PInf (Ok nA) u else Ok u) ;;
  l <- (if 0 <? nA then default NInf (Ok nA) l else Ok l) ;;
  x0 <- default (n_ofZ 0) (Ok nx) x0 ;;
  _ <- grb_options ;;
  _ <- float_and l ;;
  float_and u.

(** qps_ipopt.py:116-238; [ipopt_options]: reading the options *)
Definition qps_ipopt (ipopt_options : result unit) (H : mat) (c : vec) (A : mat) (l u xmin xmax x0 : vec) : result unit :=
  _ <- head H c A l ;;
  lp <- is_lp H ;;
  '(H, nx) <- (if lp : bool then n <- columns A xmin xmax ;; k <- set n ;; Ok (Sparse, k)
               else match H with Dense r _ => Ok (H, r) | _ => Err TypeError end) ;;
  c <- default (n_ofZ 0) (Ok nx) c ;;
  nA <- rows_of A l u ;;
  u <- (if 0 <? nA then default PInf (Ok nA) u else Ok u) ;;
  l <- (if 0 <? nA then default NInf (Ok nA) l else Ok l) ;;
  x0 <- default (n_ofZ 0) (Ok nx) x0 ;;
  _ <- len_m H ;;
  ipopt_options.

(** qps_mosek.py:82-112: the key xmin or xmax is absent for None.  The test for a problem without constraints reads
    len(A) == len(xmin) == len(xmax) == 0, and the other one 'A' in (p & len(p['A'])) *)
Definition len_key (v : vec) : result nat := match v with Vec x => Ok (length x) | NoVec => Err KeyError end.
Definition qps_mosek (rest : result unit) (H : mat) (c : vec) (A : mat) (l u xmin xmax x0 : vec) : result unit :=
  n <- len_m H ;;
  (* len(p['H']) or not any(any(p['H'])), with numpy's any: True for an empty array *)
  let lp := negb (n =? 0) || true in
  if lp then
    a <- len_m A ;;
    x <- len_key xmin ;;
    none <- (if a =? x then y <- len_key xmax ;; Ok ((x =? y) && (y =? 0)) else Ok false) ;;
    if none : bool then Err UnboundLocalError                  (* sparse((nx, nx)) *)
    else Err TypeError                                         (* p & len(p['A']) *)
  else rest.
