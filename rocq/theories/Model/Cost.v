(** Generator costs: polycost.py, totcost.py, modcost.py (with polyshift), pqcost.py.

    gencost is a list of rows of rationals (finite cells); Pg is a vector.  The matrix form of
    Pg mentioned in totcost's docstring is not modelled. *)
From Verif Require Export Lib.LinAlg Model.Idx.
Local Open Scope nat_scope.

Definition PW_LINEAR : Qc := zc 1.  (* idx_cost.py *)
Definition POLYNOMIAL : Qc := zc 2.

Definition mapi {A B} (f : nat -> A -> B) (l : list A) : list B :=
  map (fun p => f (fst p) (snd p)) (combine (seq 0 (length l)) l).

(** [gencost[i, NCOST].astype(int)]; negative counts are not modelled *)
Definition ncost_of (r : vec) : result nat :=
  q <- get r NCOST ;;
  if (qtrunc q <? 0)%Z then Err OutOfModel else Ok (Z.to_nat (qtrunc q)).

(** ** polycost.py *)

(** the row of the coefficient matrix, lines 41-45: lowest coefficient first, zero padded to
    [maxN].  A row whose NCOST is not a whole number matches no n and stays zero.  The
    assignment broadcasts a single coefficient and otherwise needs enough columns. *)
Definition coef_row (maxN : nat) (r : vec) : result vec :=
  q <- get r NCOST ;;
  n <- ncost_of r ;;
  if negb (qc_eqb q (zc (Z.of_nat n))) then Ok (repeat 0%Qc maxN)
  else
    let vals := rev (slice COST (COST + n) r) in
    if length vals =? n then Ok (vals ++ repeat 0%Qc (maxN - n))
    else match vals with
         | [v] => Ok (repeat v n ++ repeat 0%Qc (maxN - n))
         | _ => Err ValueError
         end.

(** lines 48-56; [w] is c.shape[1], [ds] what is left of range(1, der+1) *)
Fixpoint ders (ng maxN : nat) (ds : list nat) (w : nat) (c : list vec) : nat * list vec :=
  match ds with
  | [] => (w, c)
  | d :: ds' =>
      if 2 <=? w then
        let c1 := map (slice 1 (maxN - d + 1)) c in
        let c2 := map (mapi (fun j a =>
                    if (1 <=? j) && (j <? maxN - d) then (a * zc (Z.of_nat (j + 1)))%Qc else a)) c1 in
        ders ng maxN ds' (Nat.min w (maxN - d + 1) - 1) c2
      else (1, repeat [0%Qc] ng)
  end.

(** lines 62-64 for one row: constant term, then [f + c_k * Pg**k] for k = 1.. *)
Definition eval_row (c : vec) (x : Qc) : Qc :=
  match c with
  | [] => 0%Qc
  | c0 :: cs =>
      fold_left (fun f p => (f + snd p * x ^ fst p)%Qc) (combine (seq 1 (length cs)) cs) c0
  end.

Definition polycost (gencost : list vec) (Pg : vec) (der : nat) : result vec :=
  match gencost with
  | [] => Ok []
  | _ =>
      let ng := length Pg in
      ns <- mapM ncost_of gencost ;;
      let maxN := list_max ns in
      rows <- mapM (coef_row maxN) gencost ;;
      if ng <? length gencost then Err IndexError
      else
        let c := rows ++ repeat (repeat 0%Qc maxN) (ng - length gencost) in
        let '(w, c') := ders ng maxN (seq 1 der) maxN c in
        if w =? 0 then Ok []   (* c[:, :1].flatten() has no entries *)
        else Ok (map2 eval_row c' Pg)
  end.

(** ** totcost.py *)

(** p[i, k] and c[i, k], lines 34-35 *)
Definition bp_x (r : vec) (k : nat) : result Qc :=
  if COST + 2 * k <? length r - 1 then get r (COST + 2 * k) else Err IndexError.
Definition bp_y (r : vec) (k : nat) : result Qc := get r (COST + 1 + 2 * k).

(** number of passes of [for k in arange(ncost - 1, dtype=int)] *)
Definition segments (q : Qc) : nat :=
  Z.to_nat (- (- (Qnum (this (q - 1)%Qc)) / Zpos (Qden (this (q - 1)%Qc)))).

(** lines 39-48; [ks] is what is left of the loop, [t] the current totalcost[i] *)
Fixpoint pwl_loop (r : vec) (P : Qc) (ks : list nat) (t : Qc) : result Qc :=
  match ks with
  | [] => Ok t
  | k :: ks' =>
      p1 <- bp_x r k ;; p2 <- bp_x r (k + 1) ;;
      c1 <- bp_y r k ;; c2 <- bp_y r (k + 1) ;;
      if qc_eqb (p2 - p1) 0 then Err NonFinite
      else
        let m := ((c2 - c1) / (p2 - p1))%Qc in
        let b := (c1 - m * p1)%Qc in
        let t' := (m * P + b)%Qc in
        if qc_ltb P p2 then Ok t' else pwl_loop r P ks' t'
  end.

Definition model_is (m : Qc) (r : vec) : result bool :=
  q <- get r MODEL ;; Ok (qc_eqb q m).

Definition totcost (gencost : list vec) (Pg : vec) : result vec :=
  wl <- mapM (model_is PW_LINEAR) gencost ;;
  pl <- mapM (model_is POLYNOMIAL) gencost ;;
  let ipwl := find wl in
  let ipol := find pl in
  t1 <- foldM (fun t i =>
          r <- get gencost i ;;
          q <- get r NCOST ;;
          match segments q with
          | O => Ok t           (* no pass: Pg[i] is not read *)
          | n => P <- get Pg i ;; v <- pwl_loop r P (seq 0 n) 0%Qc ;; Ok (upd t i v)
          end) ipwl (repeat 0%Qc (length gencost)) ;;
  match ipol with
  | [] => Ok t1
  | _ =>
      rows <- gather gencost ipol ;;
      ps <- gather Pg ipol ;;
      f <- polycost rows ps 0 ;;
      scatter_checked t1 ipol f
  end.

(** ** modcost.py *)

Fixpoint cumsum_from (s : Qc) (l : vec) : vec :=
  match l with [] => [] | a :: r => (s + a)%Qc :: cumsum_from (s + a)%Qc r end.
Definition cumsum (l : vec) : vec := cumsum_from 0%Qc l.

(** polyshift, modcost.py:64-86: [d] is filled from the last entry to the first; [k] counts up,
    [n - k] passes are left; returns d[0 : n-k] *)
Fixpoint polyshift_loop (c : vec) (a : Qc) (n : nat) (left : nat) (b : vec) (acc : vec) : vec :=
  match left with
  | O => acc
  | S l =>
      (* here l = n - k - 1 *)
      let A := map (fun j => ((- a) ^ j)%Qc) (seq 0 n) in
      let dk := dot b (map2 Qcmult (rev (firstn (S l) c)) (firstn (S l) A)) in
      polyshift_loop c a n l (cumsum (firstn l b)) (dk :: acc)
  end.
Definition polyshift (c : vec) (a : Qc) : vec :=
  let n := length c in polyshift_loop c a n n (repeat 1%Qc n) [].

Inductive modtype := SCALE_F | SCALE_X | SHIFT_F | SHIFT_X | OtherType.

(** apply [f] to the columns [a : b : 2] of a row *)
Definition every_other (a b : nat) (f : Qc -> Qc) (r : vec) : vec :=
  mapi (fun j x => if (a <=? j) && (j <? b) && Nat.even (j - a) then f x else x) r.

Definition mod_poly (alpha : Qc) (t : modtype) (r : vec) : result vec :=
  let c := skipn COST r in
  match t with
  | SCALE_F => Ok (firstn COST r ++ map (fun x => alpha * x)%Qc c)
  | SCALE_X =>
      n <- ncost_of r ;;
      if length c <? n then Err IndexError
      else if qc_eqb alpha 0 && (1 <? n) then Err NonFinite
      else Ok (firstn COST r
               ++ mapi (fun i x => (x / alpha ^ (n - i - 1))%Qc) (firstn n c)
               ++ skipn n c)
  | SHIFT_F =>
      n <- ncost_of r ;;
      match n with
      | O => Err OutOfModel   (* c[k, -1] overwrites the NCOST column *)
      | S n' => x <- get c n' ;; Ok (upd r (COST + n') (alpha + x)%Qc)
      end
  | SHIFT_X =>
      n <- ncost_of r ;; Ok (firstn COST r ++ polyshift (firstn n c) alpha ++ skipn n c)
  | OtherType => Ok r
  end.

Definition mod_pwl (alpha : Qc) (t : modtype) (r : vec) : vec :=
  let m := length r in
  match t with
  | SCALE_F => every_other (COST + 1) m (fun x => alpha * x)%Qc r
  | SCALE_X => every_other COST (m - 1) (fun x => alpha * x)%Qc r
  | SHIFT_F => every_other (COST + 1) m (fun x => alpha + x)%Qc r
  | SHIFT_X => every_other COST (m - 1) (fun x => alpha + x)%Qc r
  | OtherType => r
  end.

Definition modcost (gencost : list vec) (alpha : Qc) (t : modtype) : result (list vec) :=
  mapM (fun r =>
    isw <- model_is PW_LINEAR r ;;
    isp <- model_is POLYNOMIAL r ;;
    if isw then Ok (mod_pwl alpha t r)
    else if isp then mod_poly alpha t r
    else Ok r) gencost.

(** ** pqcost.py: a wrong number of rows leaves both results unbound *)
Definition pqcost (gencost : list vec) (ng : nat) (on : option (list nat))
  : result (list vec * list vec) :=
  let on := match on with None => seq 0 ng | Some l => l end in
  if length gencost =? ng then p <- gather gencost on ;; Ok (p, [])
  else if length gencost =? 2 * ng then
    p <- gather gencost on ;;
    q <- gather gencost (map (fun i => i + ng) on) ;;
    Ok (p, q)
  else Err UnboundLocalError.
