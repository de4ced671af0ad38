(** pypower/poly2pwl.py: polynomial costs to piecewise linear ones.
    The table is an array of floats; limits are numpy arrays, of integers or of floats.  [pwlcost] is the array [polycost]
    itself, so a call changes the table of its caller: it is returned together with the outcome. *)
From Coq Require Import QArith.Qcanon.
From Verif Require Export Lib.Py Lib.Num Model.Idx.
Local Open Scope nat_scope.

Inductive scalar := SInt (z : Z) | SFloat (x : num).

Section Poly2pwl.
(** differences and quotients of floats, with any rounding *)
Variables fsub fdiv : num -> num -> num.
(** poly2pwl.py:44-46, given the number of the row and the points: totcost and the two assignments *)
Variable rest : nat -> list Z -> list (list Qc) -> list (list Qc) * option exn.

Definition val (a : scalar) : num := match a with SInt z => n_ofZ z | SFloat x => x end.
Definition sub (a b : scalar) : scalar := match a, b with SInt x, SInt y => SInt (x - y) | _, _ => SFloat (fsub (val a) (val b)) end.
(** true division *)
Definition div (a b : scalar) : scalar := SFloat (fdiv (val a) (val b)).
Definition bitand (a b : scalar) : result scalar := match a, b with SInt x, SInt y => Ok (SInt (Z.land x y)) | _, _ => Err TypeError end.
Definition lt (a b : scalar) : bool := num_ltb (val a) (val b).
Definition index (a : scalar) : result Z := match a with SInt z => Ok z | SFloat _ => Err TypeError end.
(** range(a, b, c) *)
Definition range (a b c : scalar) : result (list Z) :=
  x <- index a ;; y <- index b ;; s <- index c ;; _ <- guard (negb (s =? 0)%Z) ValueError ;;
  let n := if (0 <? s)%Z then ((y - x + s - 1) / s)%Z else ((x - y - s - 1) / (- s))%Z in
  Ok (map (fun k => (x + Z.of_nat k * s)%Z) (seq 0 (Z.to_nat n))).

(** poly2pwl.py:33-43: the points; [old]: the points of the row before, if any *)
Definition points (lo hi : scalar) (npts : Z) (old : option (list Z)) : result (list Z) :=
  if n_eqb (val lo) (n_ofZ 0) then
    let step := div (sub hi lo) (SInt (npts - 1)) in range lo step hi
  else if lt (SInt 0) lo then
    let step := div (sub hi lo) (SInt (npts - 2)) in xx <- range lo step hi ;; Ok (0%Z :: xx)
  else
    (* Pmin[i] < (0 & Pmax[i]) > 0 *)
    mid <- bitand (SInt 0) hi ;;
    if lt lo mid && lt (SInt 0) mid then
      let step := div (sub hi lo) (SInt (npts - 1)) in range lo step hi
    else of_option UnboundLocalError old.

Fixpoint loop (Pmin Pmax : list scalar) (npts : Z) (is : list nat) (old : option (list Z)) (t : list (list Qc))
  : list (list Qc) * option exn :=
  match is with
  | [] => (t, None)
  | i :: is' =>
      match lo <- get Pmin i ;; hi <- get Pmax i ;; points lo hi npts old with
      | Err e => (t, Some e)
      | Ok xx => match rest i xx t with
                 | (t', Some e) => (t', Some e)
                 | (t', None) => loop Pmin Pmax npts is' (Some xx) t'
                 end
      end
  end.

(** poly2pwl.py:24-48 for a table with [n] columns: the table afterwards, and the exception if there is one *)
Definition poly2pwl (n : nat) (polycost : list (list Qc)) (Pmin Pmax : list scalar) (npts : Z) : list (list Qc) * option exn :=
  if n <=? MODEL then (polycost, Some IndexError) else
  let t := map (fun r => upd r MODEL (zc 1)) polycost in
  let t := map (fun r => firstn COST r ++ repeat 0%Qc (length r - COST)) t in
  if n <=? NCOST then (t, Some IndexError) else
  let t := map (fun r => upd r NCOST (zc npts)) t in
  loop Pmin Pmax npts (seq 0 (length polycost)) None t.
End Poly2pwl.
