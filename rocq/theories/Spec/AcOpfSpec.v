(** The AC optimal power flow: what its cost, constraints and points are meant to be.  A point is a
    vector x of bus voltage angles (radians) and magnitudes, active and reactive generator outputs in
    per unit, cost variables and user variables, in this order. *)
From Coq Require Import Reals.
From Verif Require Export Spec.DcSpec.

Section AcCost.
Context {K : Type} {F : Fld K}.
Local Open Scope nat_scope.

(** output number k: the active outputs first, then the reactive ones *)
Definition ac_output (nb : nat) (x : list K) (k : nat) : K := nth (nb + nb + k) x 0%K.

(** ** user costs with a dead zone: the part of r outside -k .. k *)
Definition outside (r k : K) : K :=
  if fltb r (- k)%K then (r + k)%K else if fltb k r then (r - k)%K else 0%K.
(** row kinds 1 and 2: linear, quadratic *)
Definition shape_cost (d u : K) : K :=
  if feqb d (fofZ 1) then u else if feqb d (fofZ 2) then (u * u)%K else 0%K.
Definition zone_r (N : smat K) (rh x : list K) (i : nat) : K := (row_val N x i - nth i rh 0)%K.
Definition zone_w (N : smat K) (dd rh kk mm x : list K) : list K :=
  map (fun i => nth i mm 0 * shape_cost (nth i dd 0) (outside (zone_r N rh x i) (nth i kk 0)))%K
    (seq 0 (nrows N)).

(** parameters for nx variables that fit together, with a dead zone of nonnegative width *)
Definition zone_data (nx : nat) (N H : smat K) (Cw dd rh kk mm : list K) : Prop :=
  let nw := nrows N in
  shaped nw nx N /\ shaped nw nw H /\ length Cw = nw /\ length dd = nw /\ length rh = nw /\
  length kk = nw /\ length mm = nw /\ Forall (fun k => le 0%K k) kk.

(** ** a polynomial cost with its NCOST coefficients *)
Definition poly_cost_row (r : list K) : Prop :=
  exists n, 1 <= n /\ nth_error r NCOST = Some (fofZ (Z.of_nat n)) /\ COST + n <= length r.

(** the cost at a point: cost variables, polynomial costs of the outputs in MW and MVAr, user costs *)
Definition ac_cost (baseMVA : K) (nb ng ny : nat) (gencost : list (list K))
    (N H : smat K) (Cw dd rh kk mm x : list K) : K :=
  (lsum (fun j => nth (nb + nb + ng + ng + j) x 0) (seq 0 ny)
   + lsum (fun i => let r := nth i gencost [] in
       if cost_is 2 r then horner (coeffs r) (baseMVA * ac_output nb x i) else 0) (seq 0 (length gencost))
   + qform (nrows N) H Cw (zone_w N dd rh kk mm x))%K.

(** the point is not at the edge of a dead zone, for the rows given *)
Definition off_edges (rows : K -> Prop) (N : smat K) (dd rh kk x : list K) : Prop :=
  forall i, i < nrows N -> rows (nth i dd 0%K) -> nth i kk 0%K <> 0%K ->
    zone_r N rh x i <> nth i kk 0%K /\ zone_r N rh x i <> (- nth i kk 0)%K.
End AcCost.

(** ** derivatives with respect to one variable of a vector *)
Definition vpartial (f : list R -> R) (x : list R) (j : nat) (d : R) : Prop :=
  derivable_pt_lim (fun t => f (upd x j t)) (nth j x 0%R) d.
(** the second derivative, with respect to variable j and then variable k *)
Definition vpartial2 (f : list R -> R) (x : list R) (j k : nat) (h : R) : Prop :=
  exists (g : R -> R) (r : R), (0 < r)%R /\
    (forall t, (Rabs (t - nth k x 0) < r)%R -> vpartial f (upd x k t) j (g t)) /\
    derivable_pt_lim g (nth k x 0%R) h.
