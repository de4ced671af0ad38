(** pypower/ipoptopf_solver.py: the structure of the Jacobian that is handed to IPOPT, and the values of the Jacobian that
    are handed over at a point; the same for the Hessian.  Tables are in internal numbering.  The solver itself, and zeros that A
    stores, are left out. *)
From Verif Require Export Model.AcOpf.
Local Open Scope nat_scope.

Section Ipopt.
Context {K : Type} {F : Fld K}.
Variables (cis : K -> cpx K) (cabs : cpx K -> K).

(** ipoptopf_solver.py:116-123: buses joined by a branch, and the ends of the branches with limits *)
Definition net_structure (nb : nat) (branch : list (list K)) (il : list nat) : result (smat K * smat K) :=
  let nl := length branch in
  f <- idxcol ValueError F_BUS branch ;;
  t <- idxcol ValueError T_BUS branch ;;
  Cf <- sparse (repeat 1%K nl) (seq 0 nl) f nl nb ;;
  Ct <- sparse (repeat 1%K nl) (seq 0 nl) t nl nb ;;
  Cl <- addm Cf Ct ;;
  CC <- mulm (transp Cl) Cl ;;
  Cb <- addm CC (eyem nb) ;;
  Cl2 <- rowsel Cl il ;;
  Ok (Cb, Cl2).

(** lines 124-142; the blocks of zeros for further variables only widen the matrix *)
Definition jac_structure (nb : nat) (gen branch : list (list K)) (il : list nat) (nx : nat) (A : option (smat K)) : result (smat K) :=
  let ng := length gen in
  '(Cb, Cl2) <- net_structure nb branch il ;;
  gbus <- idxcol ValueError GEN_BUS gen ;;
  Cg <- sparse (repeat 1%K ng) gbus (seq 0 ng) nb ng ;;
  let blank := SM nb ng [] in
  bb <- hstackm Cb Cb ;;
  p2 <- hstackm bb Cg ;; p <- hstackm p2 blank ;;
  q2 <- hstackm bb blank ;; q <- hstackm q2 Cg ;;
  l1 <- hstackm Cl2 Cl2 ;; l <- hstackm l1 (SM (length il) (ng + ng) []) ;;
  v1 <- vstackm p q ;; v2 <- vstackm v1 l ;; v3 <- vstackm v2 l ;;
  let Js := widen nx v3 in
  match A with None => Ok Js | Some A => vstackm Js A end.

(** Js.row and Js.col: the positions of the entries *)
Definition stored (M : smat K) : list (nat * nat) :=
  filter (fun p => negb (feqb (at_ M (fst p) (snd p)) 0%K)) (list_prod (seq 0 (nrows M)) (seq 0 (ncols M))).

(** scipy.sparse.tril *)
Definition tril (M : smat K) : smat K := SM (nrows M) (ncols M) (filter (fun e => ecol e <=? erow e) (ents M)).
(** lines 144-149: the structure of the Hessian, from the second derivatives [d2f] of the cost at the start *)
Definition hess_structure (nb : nat) (branch : list (list K)) (il : list nat) (nx : nat) (d2f : smat K) : result (smat K) :=
  '(Cb, _) <- net_structure nb branch il ;;
  b <- block4 Cb Cb Cb Cb ;;
  H <- addm d2f (corner nx b) ;;
  Ok (tril H).

(** lines 393-406: the derivatives of all constraints; dhn is None without limited branches *)
Definition jac_g (D : acdata) (lim : flow_lim) (Ybus Yf Yt : smat (cpx K)) (il : list nat) (A : option (smat K)) (x : list K) : result (smat K) :=
  '(_, _, dh, dg) <- opf_consfcn cis cabs D lim Ybus Yf Yt il x ;;
  match dh, dg with
  | Some dh, Some dg =>
      J <- vstackm (transp dg) (transp dh) ;;
      match A with None => Ok J | Some A => vstackm J A end
  | _, _ => Err AttributeError
  end.
(** lines 381-415 *)
Definition eval_jac_g (D : acdata) (lim : flow_lim) (Ybus Yf Yt : smat (cpx K)) (il : list nat) (A : option (smat K)) (Js : smat K) (x : list K) : result (list K) :=
  J <- jac_g D lim Ybus Yf Yt il A x ;;
  Ok (map (fun p => at_ J (fst p) (snd p)) (stored Js)).
(** lines 418-451 *)
Definition eval_h (D : acdata) (lim : flow_lim) (Ybus Yf Yt : smat (cpx K)) (il : list nat) (Hs : smat K) (x lagrange : list K) (obj_factor : K) : result (list K) :=
  let nb := length (a_bus D) in
  let lam := slice 0 (nb + nb) lagrange in
  mu <- gather lagrange (seq (nb + nb) (length il + length il)) ;;
  H <- opf_hessfcn cis cabs D lim Ybus Yf Yt il x lam mu obj_factor ;;
  Ok (map (fun p => at_ (tril H) (fst p) (snd p)) (stored Hs)).

(** lines 361-378: the constraints *)
Definition eval_g (D : acdata) (lim : flow_lim) (Ybus Yf Yt : smat (cpx K)) (il : list nat) (A : option (smat K)) (x : list K) : result (list K) :=
  '(hn, gn, _, _) <- opf_consfcn cis cabs D lim Ybus Yf Yt il x ;;
  match A with None => Ok (gn ++ hn) | Some A => Ax <- mulv A x ;; Ok (gn ++ hn ++ Ax) end.
(** lines 192-202: their bounds; None is infinite *)
Definition con_lower (nb nl2 : nat) (l : list (option K)) : list (option K) := repeat (Some 0%K) (2 * nb) ++ repeat None (2 * nl2) ++ l.
Definition con_upper (nb nl2 : nat) (u : list (option K)) : list (option K) := repeat (Some 0%K) (2 * nb) ++ repeat (Some 0%K) (2 * nl2) ++ u.
End Ipopt.
