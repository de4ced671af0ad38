(** The DC optimal power flow problem: what a point of the problem is meant to satisfy.  A point is a
    vector x of bus angles, generator outputs in per unit, cost variables and user variables. *)
From Verif Require Export Spec.OpfSpec.

Section DcSpec.
Context {K : Type} {F : Fld K}.
Local Open Scope nat_scope.

Definition angles (nb : nat) (x : list K) : list K := firstn nb x.
Definition output (nb : nat) (x : list K) (k : nat) : K := nth (nb + k) x 0%K.
(** total output of the generators at bus [i] *)
Definition injected (gen : list (list K)) (nb : nat) (x : list K) (i : nat) : K :=
  lsum (fun kg => if bus_no (snd kg) GEN_BUS =? i then output nb x (fst kg) else 0%K)
    (combine (seq 0 (length gen)) gen).

(** the active power costs given by several segments; cost variables stand for these, in order *)
Definition segmented (r : list K) : bool := cost_is 1 r && negb (feqb (cell r NCOST) (fofZ 2)).
Definition multi_rows (ng : nat) (gencost : list (list K)) : list nat :=
  filter (fun i => segmented (nth i gencost [])) (seq 0 ng).

Definition flow_limited (r : list K) : Prop := cell r RATE_A <> 0%K /\ lt (cell r RATE_A) huge.

(** user constraints are given for the variables without the cost variables; a matrix with the columns
    of an AC problem applies with voltage magnitudes and reactive outputs zero *)
Definition without_y (n ny : nat) (x : list K) : list K := firstn n x ++ skipn (n + ny) x.
Definition with_vq (nb ng : nat) (v : list K) : list K :=
  firstn nb v ++ repeat 0%K nb ++ firstn ng (skipn nb v) ++ repeat 0%K ng ++ skipn (nb + ng) v.
Definition ac_sized (nb ng : nat) (A : smat K) : bool := 2 * nb + 2 * ng <=? ncols A.
Definition user_val (nb ng ny : nat) (A : smat K) (x : list K) (i : nat) : K :=
  let v := without_y (nb + ng) ny x in
  row_val A (if ac_sized nb ng A then with_vq nb ng v else v) i.
Definition user_vars (nb ng : nat) (A : option (smat K)) : nat :=
  match A with
  | Some A => if ac_sized nb ng A then ncols A - (2 * nb + 2 * ng) else ncols A - (nb + ng)
  | None => 0
  end.

(** [E d]: the two sides of an equation may differ by d; [L d]: the smaller side of an inequality may
    exceed the larger one by d *)
Variables E L : K -> Prop.
Definition inside (lo up : ext K) (v : K) : Prop :=
  match lo with EFin a => L (a - v)%K | ENeg => True | EPos => False end /\
  match up with EFin b => L (v - b)%K | EPos => True | ENeg => False end.

Variables (ignore_angles : bool) (baseMVA : K) (bus gen branch gencost : list (list K)).
Variables (A : option (smat K)) (l u zl zu : list (ext K)).
Notation nb := (length bus).
Notation ng := (length gen).
Notation ny := (length (multi_rows ng gencost)).

Record dc_point (x : list K) : Prop := {
  (* flow out of each bus and load there against generation *)
  dp_balance : forall i r, nth_error bus i = Some r ->
    E (net_out (flow_at (angles nb x)) branch i + (cell r PD + cell r GS) / baseMVA - injected gen nb x i)%K;
  dp_flow : forall r, In r branch -> flow_limited r ->
    L (dc_flow r (angles nb x) - cell r RATE_A / baseMVA)%K /\
    L (- dc_flow r (angles nb x) - cell r RATE_A / baseMVA)%K;
  dp_output : forall k g, nth_error gen k = Some g ->
    L (cell g PMIN / baseMVA - output nb x k)%K /\ L (output nb x k - cell g PMAX / baseMVA)%K;
  dp_reference : forall i r, nth_error bus i = Some r -> cell r BUS_TYPE = fofZ 3 ->
    E (nth i x 0 - degrees (cell r VA))%K;
  dp_angles : ignore_angles = false -> forall r, In r branch -> angle_limited r ->
    (cell r ANGMIN <> 0%K -> L (degrees (cell r ANGMIN) - angle_diff r (angles nb x))%K) /\
    (cell r ANGMAX <> 0%K -> L (angle_diff r (angles nb x) - degrees (cell r ANGMAX))%K);
  dp_cost : forall j i a b, nth_error (multi_rows ng gencost) j = Some i ->
    In (a, b) (combine (bpts (nth i gencost [])) (tl (bpts (nth i gencost [])))) ->
    L (chord a b (baseMVA * output nb x i) - nth (nb + ng + j) x 0)%K;
  dp_user : forall M i, A = Some M -> i < nrows M ->
    inside (lower l i) (upper u i) (user_val nb ng ny M x i);
  dp_z : forall k, k < user_vars nb ng A ->
    inside (lower zl k) (upper zu k) (nth (nb + ng + ny + k) x 0%K) }.
End DcSpec.

(** exact satisfaction and satisfaction up to less than [t] *)
Section Tolerance.
Context {K : Type} {F : Fld K}.
Definition no_excess (d : K) : Prop := le d 0%K.
Definition equal_ (d : K) : Prop := d = 0%K.
Definition excess_to (t d : K) : Prop := lt d t.
Definition equal_to (t d : K) : Prop := lt (fabs d) t.
End Tolerance.

(** limits that do not contradict each other *)
Section Limits.
Context {K : Type} {F : Fld K}.
Local Open Scope nat_scope.
Definition limits_ordered (ignore_angles : bool) (baseMVA : K) (bus gen branch : list (list K))
    (A : option (smat K)) (l u zl zu : list (ext K)) : Prop :=
  (forall g, In g gen -> le (cell g PMIN / baseMVA)%K (cell g PMAX / baseMVA)%K) /\
  (ignore_angles = false -> forall r, In r branch -> angle_limited r ->
     cell r ANGMIN <> 0%K -> cell r ANGMAX <> 0%K -> le (degrees (cell r ANGMIN)) (degrees (cell r ANGMAX))) /\
  (forall M i, A = Some M -> i < nrows M -> ordered (lower l i) (upper u i)) /\
  (forall k, k < user_vars (length bus) (length gen) A -> ordered (lower zl k) (upper zu k)).
(** bounds that coincide or are clearly apart *)
Definition clear_cut (lo up : ext K) : Prop := tight lo up -> lo = up.
Definition limits_clear (ignore_angles : bool) (baseMVA : K) (bus gen branch : list (list K))
    (A : option (smat K)) (l u zl zu : list (ext K)) : Prop :=
  (forall g, In g gen -> clear_cut (EFin (cell g PMIN / baseMVA)%K) (EFin (cell g PMAX / baseMVA)%K)) /\
  (ignore_angles = false -> forall r, In r branch -> angle_limited r ->
     cell r ANGMIN <> 0%K -> cell r ANGMAX <> 0%K ->
     clear_cut (EFin (degrees (cell r ANGMIN))) (EFin (degrees (cell r ANGMAX)))) /\
  (forall M i, A = Some M -> i < nrows M -> clear_cut (lower l i) (upper u i)) /\
  (forall k, k < user_vars (length bus) (length gen) A -> clear_cut (lower zl k) (upper zu k)).
(** a bound the solver does not take for an absent one *)
Definition moderate (e : ext K) : Prop := match e with EFin a => lt (fabs a) huge | _ => True end.
End Limits.

(** ** the reported tables *)
Section Report.
Context {K : Type} {F : Fld K}.
Local Open Scope nat_scope.
(** only the named cells of a row have changed *)
Definition kept_but (cs : list nat) (r r' : list K) : Prop :=
  length r' = length r /\ forall j, ~ In j cs -> cell r' j = cell r j.
(** row [k] of the constraints l <= A x <= u says lo <= v(x) <= up, apart from a constant *)
Definition row_says (nx : nat) (A : smat K) (l u : list (ext K)) (k : nat) (lo up : ext K) (v : list K -> K) : Prop :=
  k < nrows A /\ exists c,
    lower l k = match lo with EFin a => EFin (a - c)%K | i => i end /\
    upper u k = match up with EFin b => EFin (b - c)%K | i => i end /\
    forall x, length x = nx -> row_val A x k = (v x - c)%K.
End Report.

(** ** prices *)
Section Prices.
Context {K : Type} {F : Fld K}.
Local Open Scope nat_scope.
(** change of the flow of a branch with the angle of bus n *)
Definition flow_by (nb : nat) (r : list K) (n : nat) : K :=
  (dc_flow r (map (fun i => if i =? n then 1 else 0) (seq 0 nb)) - dc_flow r (repeat 0 nb))%K.
Definition flow_limitedb (r : list K) : bool := negb (feqb (cell r RATE_A) 0%K) && fltb (cell r RATE_A) huge.
(** what the price reported at a bus adds up from: difference of the prices at the ends of the branch
    and the prices of its limits *)
Definition congestion (bus : list (list K)) (r r' : list K) : K :=
  (cell (nth (bus_no r F_BUS) bus []) LAM_P - cell (nth (bus_no r T_BUS) bus []) LAM_P
   + cell r' MU_SF - cell r' MU_ST)%K.
End Prices.

(** ** the objective *)
Section Objective.
Context {K : Type} {F : Fld K}.
Local Open Scope nat_scope.
(** the coefficients of a polynomial cost, highest order first, and its value *)
Definition coeffs (r : list K) : list K := firstn (npoints r) (skipn COST r).
Definition horner (cs : list K) (p : K) : K := fold_left (fun a c => a * p + c)%K cs 0%K.
Definition pt (r : list K) (k : nat) : K * K := (cell r (COST + 2 * k), cell r (COST + 1 + 2 * k)).
(** the cost of an output of p MW, for a polynomial or a single segment *)
Definition row_cost (r : list K) (p : K) : K :=
  if cost_is 1 r then chord (pt r 0) (pt r 1) p else horner (coeffs r) p.
Definition lin_or_quad (r : list K) : Prop :=
  cost_is 2 r = true /\ (cell r NCOST = fofZ 2 \/ cell r NCOST = fofZ 3).
(** a quadratic cost curved upwards *)
Definition quad_rising (r : list K) : Prop :=
  cost_is 2 r = true -> cell r NCOST = fofZ 3 -> le 0%K (cell r COST).
(** the cost of one more MW, at p MW: value and derivative of the polynomial, by Horner's rule *)
Definition horner2 (cs : list K) (p : K) : K * K :=
  fold_left (fun ad c => (fst ad * p + c, snd ad * p + fst ad)%K) cs (0%K, 0%K).
Definition marginal (r : list K) (p : K) : K :=
  if cost_is 1 r then slope (pt r 0) (pt r 1) else snd (horner2 (coeffs r) p).
(** generation cost at a point: cost variables for the segmented costs, the cost itself for the others *)
Definition gen_cost_by (cost : list K -> K -> K) (baseMVA : K) (nb ng : nat) (gencost : list (list K))
    (x : list K) : K :=
  (lsum (fun j => nth (nb + ng + j) x 0) (seq 0 (length (multi_rows ng gencost)))
   + lsum (fun i => let r := nth i gencost [] in
       if segmented r then 0 else cost r (baseMVA * output nb x i)) (seq 0 ng))%K.
Definition gen_cost := gen_cost_by row_cost.
(** linear and quadratic polynomials only, everything else free of charge *)
Definition low_order_cost (r : list K) (p : K) : K :=
  if cost_is 1 r || (cost_is 2 r && (feqb (cell r NCOST) (fofZ 2) || feqb (cell r NCOST) (fofZ 3)))
  then row_cost r p else 0%K.
(** one half x' H x + c' x, over n variables *)
Definition qform (n : nat) (H : smat K) (c x : list K) : K :=
  (1 / fofZ 2 * lsum (fun i => nth i x 0 * lsum (fun j => at_ H i j * nth j x 0) (seq 0 n)) (seq 0 n)
   + lsum (fun i => nth i c 0 * nth i x 0) (seq 0 n))%K.
(** user cost: one half w' H w + Cw' w with w = m (N x - rh) *)
Definition user_w (N : smat K) (rh mm x : list K) : list K :=
  map (fun i => nth i mm 0 * (row_val N x i - nth i rh 0))%K (seq 0 (nrows N)).
Definition user_cost (N H : smat K) (Cw rh mm x : list K) : K :=
  qform (nrows N) H Cw (user_w N rh mm x).
Definition sym_mat (H : smat K) : Prop := forall i j, at_ H i j = at_ H j i.
End Objective.
